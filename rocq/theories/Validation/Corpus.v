(** The catalogues of /repo/test, byte for byte; generated by tools/corpus.py. In the literals
    "~" and two hexadecimal digits stand for the byte with that code. *)
From Coq Require Import String Ascii.
From Verif.Model Require Import Base.
Local Open Scope list_scope.

Definition hex (c : ascii) : N :=
  let n := N_of_ascii c in if (n <? 58)%N then (n - 48)%N else (n - 87)%N.
Fixpoint decode (s : string) : bytes :=
  match s with
  | EmptyString => []
  | String c s' =>
      if Ascii.eqb c "~" then
        match s' with
        | String a (String b s'') => chr (16 * hex a + hex b)%N :: decode s''
        | _ => []
        end
      else c :: decode s'
  end.
(** lines, each ended by a newline, and the rest behind the last newline *)
Definition text (lines : list string) (rest : string) : bytes :=
  concat (List.map (fun l => decode l ++ [c_lf]) lines) ++ decode rest.

(** /repo/test/broken.po, 1460 bytes *)
Definition broken_po : bytes := Eval vm_compute in text [
"# SOME DESCRIPTIVE TITLE.";
"# Copyright (C) YEAR Free Software Foundation, Inc.";
"# FIRST AUTHOR <EMAIL@ADDRESS>, YEAR.";
"#";
"#, fuzzy";
"msgid """"";
"msgstr """"";
"""Project-Id-Version: PACKAGE VERSION\n""";
"""Report-Msgid-Bugs-To: \n""";
"""POT-Creation-Date: 2009-01-30 08:01+0100\n""";
"""PO-Revision-Date: 2009-01-30 08:39+0100\n""";
"""Last-Translator: FULL NAME <EMAIL@ADDRESS>\n""";
"""Language-Team: LANGUAGE <LL@li.org>\n""";
"""MIME-Version: 1.0\n""";
"""Content-Type: text/plain; charset=UTF-8\n""";
"""Content-Transfer-Encoding: 8bit\n""";
"";
"#: helloworld.cpp:7";
"msgid ""Short Hello World""";
"msgstr ""kurzes Hallo Welt";
"";
"#: helloworld.cpp:8 helloworld.cpp:14";
"#, fuzzy";
"msgid ""Hello World""";
"msgid_plural ""Hello Worlds""";
"msgstr[0] ""Hallo Welt (singular)""";
"msgstr[1] ""Hallo Welt (plural)""";
"msgstr[10] ""Hallo Welt (plural)""";
"";
"#: helloworld.cpp:10 helloworld.cpp:16";
"#, fuzzy";
"msgctxt """"";
"msgid ""Hello World""";
"msgid_plural ""Hello Worlds""";
"msgstr[0] Hallo Welt (singular) mit leerem Kontext""";
"msgstr[1] ""Hallo Welt (plural) mit leerem Kontext""";
"";
"#: helloworld.cpp:11 helloworld.cpp:17";
"msgctxt ""console""";
"msgid ""Hello World""";
"msgid_plural ""Hello Worlds""";
"msgstr[0]""Hallo Welt (singular) in der Console""";
"msgstr[1] ""Hallo Welt (plural) in der Console""";
"";
"#: helloworld.cpp:13";
"msgid ""gui""";
"msgid_plural ""Hello World""";
"msgstr[0]~09""Hallo Welt (singular)""";
"msgstr[1] ""Hallo Welt (plural)""";
"";
"#: helloworld.cpp:18";
"#, fuzzy";
"msgctxt ""gui""";
"msgid ""Hello World""";
"msgid_plural ""Hello Worlds""";
"msgstr[0] ""Hallo Welt im GUI""";
"msgstr[1] ""Hallo Welt (plural) im GUI"""
  ]%string "".

(** /repo/test/po/de.po, 26417 bytes *)
Definition po_de : bytes := Eval vm_compute in text [
"# SOME DESCRIPTIVE TITLE.";
"# Copyright (C) YEAR Free Software Foundation, Inc.";
"# FIRST AUTHOR <EMAIL@ADDRESS>, YEAR.";
"#";
"msgid """"";
"msgstr """"";
"""Project-Id-Version: Pingus 0.6.0\n""";
"""Report-Msgid-Bugs-To: \n""";
"""POT-Creation-Date: 2004-04-09 18:37+0000\n""";
"""PO-Revision-Date: 2009-02-01 17:44+0100\n""";
"""Last-Translator: David Philippi <david@torangan.de>\n""";
"""Language-Team: David Philippi <david@torangan.de>, Ingo Ruhnke <grumbel@gmail.com>, Giray Devlet <giray@devlet.cc>\n""";
"""MIME-Version: 1.0\n""";
"""Plural-Forms: nplurals=2; plural=(n != 1);\n""";
"""Content-Type: text/plain; charset=UTF-8\n""";
"""Content-Transfer-Encoding: 8bit\n""";
"";
"msgid ""umlaut""";
"msgstr ""~c3~84~c3~96~c3~9c~c3~a4~c3~b6~c3~bc~c3~9f""";
"";
"#: src/actions/bridger.cxx:48 src/actions/bridger.cxx:232";
"#: src/pingu_enums.cxx:40";
"msgid ""Bridger""";
"msgstr ""Bridger""";
"";
"#: src/config.cxx:73";
"msgid ""Couldn't open: """;
"msgstr ""Datei oder Verzeichnis konnte nicht ge~f6ffnet werden: """;
"";
"#: src/config.cxx:172";
"msgid ""Unexpected char: '""";
"msgstr ""Unerwartetes Zeichen: '""";
"";
"#: src/config.cxx:206";
"msgid ""Unexpected char '""";
"msgstr ""Unerwartetes Zeichen: '""";
"";
"#: src/credits.cxx:48";
"msgid ""-Idea""";
"msgstr ""-Idee""";
"";
"#: src/credits.cxx:52";
"msgid ""-Maintaining""";
"msgstr ""-Verwaltung""";
"";
"#: src/credits.cxx:56";
"msgid ""-Programming""";
"msgstr ""-Programmierung""";
"";
"#: src/credits.cxx:62";
"msgid ""-Porting (Win32)""";
"msgstr ""-Portierung (Win32)""";
"";
"#: src/credits.cxx:70";
"msgid ""-Gfx""";
"msgstr ""-Grafiken""";
"";
"#: src/credits.cxx:82";
"msgid ""-Music""";
"msgstr ""-Musik""";
"";
"#: src/credits.cxx:88";
"msgid ""-Level Design""";
"msgstr ""-Level Design""";
"";
"#: src/credits.cxx:93";
"msgid ""-Story""";
"msgstr ""-Geschichte""";
"";
"#: src/credits.cxx:97";
"msgid ""-Translation""";
"msgstr ""-~dcbersetzung""";
"";
"#: src/credits.cxx:112";
"msgid ""-Special""";
"msgstr ""-Besonderen""";
"";
"#: src/credits.cxx:113";
"msgid ""-Thanks to""";
"msgstr ""-Dank an""";
"";
"#: src/credits.cxx:154";
"msgid ""_And a very Special Thanks""";
"msgstr ""_Und einen besonderen Dank""";
"";
"#: src/credits.cxx:155";
"msgid ""_to all the people who""";
"msgstr ""_an alle Leute die""";
"";
"#: src/credits.cxx:156";
"msgid ""_contribute to""";
"msgstr ""_an Freier Software""";
"";
"#: src/credits.cxx:157";
"msgid ""_Free Software!""";
"msgstr ""_mitarbeiten!""";
"";
"#: src/credits.cxx:163";
"msgid ""_Thank you for""";
"msgstr ""_Dankesch~f6n f~fcrs""";
"";
"#: src/credits.cxx:164";
"msgid ""_playing!""";
"msgstr ""_spielen!""";
"";
"#: src/editor/editor_event.cxx:588";
"msgid ""Enter filename to save as:""";
"msgstr ""Datei speichern als:  """;
"";
"#: src/editor/editor_help_screen.cxx:43";
"msgid ""Editor Helpscreen (hide with F1)""";
"msgstr ""Editor Hilfe (ausblenden mit F1)""";
"";
"#: src/editor/editor_help_screen.cxx:51";
"msgid ""F1 - show/hide this help screen""";
"msgstr ""F1 - Hilfe anzeigen/verstecken""";
"";
"#: src/editor/editor_help_screen.cxx:52";
"msgid ""F2 - launch level building tutorial""";
"msgstr ""F2 - Starte Levelbau Tutorial""";
"";
"#: src/editor/editor_help_screen.cxx:53";
"msgid ""F3 - toggle background color""";
"msgstr ""F3 - Hintergrundfarbe aendern""";
"";
"#: src/editor/editor_help_screen.cxx:54";
"msgid ""F4 - play/test the level""";
"msgstr ""F4 - Level starten/testen""";
"";
"#: src/editor/editor_help_screen.cxx:55";
"msgid ""F5 - load a level""";
"msgstr ""Level Laden (F5)""";
"";
"#: src/editor/editor_help_screen.cxx:56";
"msgid ""F6 - save this level""";
"msgstr ""Level Speichern (F6)""";
"";
"#: src/editor/editor_help_screen.cxx:57";
"msgid ""F7 - [unset]""";
"msgstr ""F7 - [nicht belegt]""";
"";
"#: src/editor/editor_help_screen.cxx:58";
"msgid ""F8 - quick save/backup save?!""";
"msgstr ""F8 - Schnellspeichern/Backup""";
"";
"#: src/editor/editor_help_screen.cxx:59";
"msgid ""F9 - change level width and height""";
"msgstr ""F9 - Level H~f6he und Breite ~e4ndern""";
"";
"#: src/editor/editor_help_screen.cxx:60";
"msgid ""F10 - [unset]""";
"msgstr ""F10 - [nicht belegt]""";
"";
"#: src/editor/editor_help_screen.cxx:61";
"msgid ""F11 - toggle fps counter""";
"msgstr ""F11 - fps Z~e4hler an/aus""";
"";
"#: src/editor/editor_help_screen.cxx:62";
"msgid ""F12 - make screenshot""";
"msgstr ""F12 - Screenshot erstellen""";
"";
"#: src/editor/editor_help_screen.cxx:66";
"msgid ""Home - increase object size""";
"msgstr ""Einfg - Objekt vergr~f6~dfern""";
"";
"#: src/editor/editor_help_screen.cxx:67";
"msgid ""End  - decrease object size""";
"msgstr ""Ende - Objekt verkleinern""";
"";
"#: src/editor/editor_help_screen.cxx:68";
"msgid ""Cursor Keys - Move object""";
"msgstr ""Cursor Tasten - Objekt bewegen""";
"";
"#: src/editor/editor_help_screen.cxx:69";
"msgid ""Shift 'Cursor Keys' - Move objects fast """;
"msgstr ""Shift Cursor Tasten - Objekt schneller bewegen""";
"";
"#: src/editor/editor_help_screen.cxx:70";
"msgid ""PageUp   - level object up""";
"msgstr ""Bild rauf - Objekt nach oben""";
"";
"#: src/editor/editor_help_screen.cxx:71";
"msgid ""PageDown - level object down""";
"msgstr ""Bild runter - Objekt nach unten""";
"";
"#: src/editor/editor_help_screen.cxx:72";
"msgid ""Shift PageUp   - increase objects z-pos by 50""";
"msgstr ""Shift Bild rauf - Objekt nach oben""";
"";
"#: src/editor/editor_help_screen.cxx:73";
"msgid ""Shift PageDown - decrease objects z-pos by 50""";
"msgstr ""Shift Bild runter - Objekt nach unten""";
"";
"#: src/editor/editor_help_screen.cxx:74";
"msgid ""Enter - Set default zoom (1:1)""";
"msgstr ""Eingabe - Setze Standard Zoom (1:1)""";
"";
"#: src/editor/editor_help_screen.cxx:75";
"msgid ""d - duplicate object""";
"msgstr ""d - Objekt kopieren""";
"";
"#: src/editor/editor_help_screen.cxx:76";
"msgid ""a - mark all objects""";
"msgstr ""a - Alle Objekte markieren""";
"";
"#: src/editor/editor_help_screen.cxx:77";
"msgid ""shift leftmouseclick - add object to selection""";
"msgstr ""Shift + linke Maustaste - Objekt zur Auswahl tun""";
"";
"#: src/editor/editor_help_screen.cxx:78";
"msgid ""leftmouseclick - select object""";
"msgstr ""linke Maustaste - Objekt ausw~e4hlen""";
"";
"#: src/editor/editor_help_screen.cxx:79";
"msgid ""Insert - insert new object""";
"msgstr ""Einf~fcgen - neues Objekt einf~fcgen""";
"";
"#: src/editor/editor_help_screen.cxx:80";
"msgid ""Remove - remove selected object""";
"msgstr ""Entfernen - entferne ausgew~e4hltes Objekt""";
"";
"#: src/editor/editor_help_screen.cxx:81";
"msgid ""g - ungroup/group current selection""";
"msgstr ""g - Auswahl gruppieren / Gruppierung aufheben""";
"";
"#: src/editor/editor_help_screen.cxx:82";
"msgid ""Ctrl PageUp   - increase objects z-pos by 1""";
"msgstr ""Strg Bild rauf - z-pos des Objekts um 1 erh~f6hen""";
"";
"#: src/editor/editor_help_screen.cxx:83";
"msgid ""Ctrl PageDown - decrease objects z-pos by 1""";
"msgstr ""Strg Bild runter - z-pos des Objekts um 1 senken""";
"";
"#: src/editor/editor_help_screen.cxx:89";
"msgid ""Naming Convention: <LEVELNAME><NUMBER>-<CREATOR>.plf""";
"msgstr ""Dateinamensvorgabe: <LEVELNAME><NUMMER>-<AUTOR>.pfl""";
"";
"#: src/editor/editor_help_screen.cxx:91";
"msgid """"";
"""When you have created a level and want to have it in the next Pingus """;
"""release,\n""";
"""please mail it to pingus-devel@nongnu.org.""";
"msgstr """"";
"""Falls Du einen Level erstellt hast und ihn gerne im n~e4chsten Pingus\n""";
"""Release h~e4ttest, schicke ihn an pingus-devel@nongnu.org.""";
"";
"#: src/editor/object_selector.cxx:106";
"msgid ""1 - guillotine""";
"msgstr ""1 - Guillotine""";
"";
"#: src/editor/object_selector.cxx:107";
"msgid ""2 - hammer""";
"msgstr ""2 - Hammer""";
"";
"#: src/editor/object_selector.cxx:108";
"msgid ""3 - spike""";
"msgstr ""3 - Stacheln""";
"";
"#: src/editor/object_selector.cxx:109";
"msgid ""4 - laser_exit""";
"msgstr ""4 - Laser Ausgang""";
"";
"#: src/editor/object_selector.cxx:110";
"msgid ""5 - fake_exit""";
"msgstr ""5 - T~e4usch Ausgang""";
"";
"#: src/editor/object_selector.cxx:111";
"msgid ""6 - smasher""";
"msgstr ""6 - Stampfer""";
"";
"#: src/editor/object_selector.cxx:112";
"msgid ""7 - bumper""";
"msgstr ""7 - Stosser""";
"";
"#: src/editor/object_selector.cxx:186";
"msgid ""Select a WorldObj""";
"msgstr ""W~e4hle ein WeltObjekt""";
"";
"#: src/editor/object_selector.cxx:187";
"msgid ""1 - teleporter""";
"msgstr ""1 - Teleporter""";
"";
"#: src/editor/object_selector.cxx:188";
"msgid ""2 - switch and door""";
"msgstr ""2 - Schalter und T~fcr""";
"";
"#: src/editor/object_selector.cxx:189";
"msgid ""3 - ConveyorBelt""";
"msgstr ""3 - F~f6rderband""";
"";
"#: src/editor/object_selector.cxx:190";
"msgid ""4 - IceBlock""";
"msgstr ""4 - Eisblock""";
"";
"#: src/editor/object_selector.cxx:191";
"msgid ""5 - InfoBox""";
"msgstr ""5 - InfoBox""";
"";
"#: src/editor/object_selector.cxx:232";
"msgid ""Select a weather""";
"msgstr ""W~e4hle ein Wetter""";
"";
"#: src/editor/object_selector.cxx:233";
"msgid ""1 - snow""";
"msgstr ""1 - Schnee""";
"";
"#: src/editor/object_selector.cxx:234";
"msgid ""2 - rain""";
"msgstr ""2 - Regen""";
"";
"#: src/editor/object_selector.cxx:265";
"msgid ""Select an entrance""";
"msgstr ""W~e4hle einen Eingang""";
"";
"#: src/editor/object_selector.cxx:266";
"msgid ""1 - generic""";
"msgstr ""1 - allgemein""";
"";
"#: src/editor/object_selector.cxx:267";
"msgid ""2 - woodthing""";
"msgstr ""2 - h~f6lzern""";
"";
"#: src/editor/object_selector.cxx:268";
"msgid ""3 - cloud""";
"msgstr ""3 - Wolke""";
"";
"#: src/editor/object_selector.cxx:269";
"msgid ""h - entrance surface (hotspot)""";
"msgstr ""h - Eingangs Grafik (hotspot)""";
"";
"#: src/editor/object_selector.cxx:343";
"msgid ""What object type do you want?""";
"msgstr ""Was f~fcr ein Objekt willst du?""";
"";
"#: src/editor/object_selector.cxx:344 src/editor/object_selector.cxx:400";
"msgid ""h - Hotspot""";
"msgstr ""h - Grafikelement (hotspot)""";
"";
"#: src/editor/object_selector.cxx:345";
"msgid ""g - Groundpiece (ground) [not implemented]""";
"msgstr ""g - Bodenst~fcck (ground) [nicht implementiert]""";
"";
"#: src/editor/object_selector.cxx:394 src/editor/object_selector.cxx:562";
"msgid ""Which object do you want?""";
"msgstr ""Welches Objekt willst du?""";
"";
"#: src/editor/object_selector.cxx:395";
"msgid ""g - Groundpiece (ground)""";
"msgstr ""g - Bodenst~fcck (ground)""";
"";
"#: src/editor/object_selector.cxx:396";
"msgid ""s - Groundpiece (solid)""";
"msgstr ""s - Bodenelement (Stahl)""";
"";
"#: src/editor/object_selector.cxx:397";
"msgid ""b - Groundpiece (bridge)""";
"msgstr ""b - Bodenelement (Bruecke)""";
"";
"#: src/editor/object_selector.cxx:398";
"msgid ""n - Groundpiece (transparent)""";
"msgstr ""n - Bodenelement (transparent)""";
"";
"#: src/editor/object_selector.cxx:399";
"msgid ""r - Groundpiece (remove)""";
"msgstr ""r - Bodenelement (entfernen)""";
"";
"#: src/editor/object_selector.cxx:401";
"msgid ""e - Entrance""";
"msgstr ""e - Eingang""";
"";
"#: src/editor/object_selector.cxx:402";
"msgid ""x - Exit""";
"msgstr ""x - Ausgang""";
"";
"#: src/editor/object_selector.cxx:403";
"msgid ""l - Liquid""";
"msgstr ""l - Fl~fcssigkeit""";
"";
"#: src/editor/object_selector.cxx:404";
"msgid ""w - Weather""";
"msgstr ""w - Wetter""";
"";
"#: src/editor/object_selector.cxx:405";
"msgid ""t - Traps""";
"msgstr ""t - Falle""";
"";
"#: src/editor/object_selector.cxx:406";
"msgid ""o - WorldObject""";
"msgstr ""o - WeltObjekt""";
"";
"#: src/editor/object_selector.cxx:407";
"msgid ""z - Background""";
"msgstr ""z - Hintergrund""";
"";
"#: src/editor/object_selector.cxx:408";
"msgid ""p - Prefab (ObjectGroup)""";
"msgstr ""p - Prefab (Objekt Gruppe)""";
"";
"#: src/editor/object_selector.cxx:409";
"msgid ""f - something from file (~7e/.pingus/images/)""";
"msgstr ""f - etwas aus einer Datei (~7e/.pingus/images/)""";
"";
"#: src/editor/object_selector.cxx:498";
"msgid ""Which prefab do you want?""";
"msgstr ""Welche Prefab willst du?""";
"";
"#: src/editor/object_selector.cxx:563";
"msgid ""1 - Surface Background""";
"msgstr ""1 - Bild Hintergrund""";
"";
"#: src/editor/object_selector.cxx:564";
"msgid ""2 - Solid Color Background""";
"msgstr ""2 - Farb Hintergrund""";
"";
"#: src/editor/object_selector.cxx:565";
"msgid ""3 - Starfield Background""";
"msgstr ""3 - Sternen Hintergrund""";
"";
"#: src/editor/object_selector.cxx:566";
"msgid ""4 - Thunderstorm Background""";
"msgstr ""4 - Gewitter Hintergrund""";
"";
"#: src/editor/panel_icons.cxx:33";
"msgid ""Load a level (F5)""";
"msgstr ""Level laden (F5)""";
"";
"#: src/editor/panel_icons.cxx:46";
"msgid ""Exit the editor (Escape)""";
"msgstr ""Editor Beenden (Esc)""";
"";
"#: src/editor/panel_icons.cxx:58";
"msgid ""Save this level (F6)""";
"msgstr ""Level Speichern (F6)""";
"";
"#: src/editor/panel_icons.cxx:70";
"msgid ""Delete marked objects (delete)""";
"msgstr ""Markierte Objekte L~f6schen (Entfernen)""";
"";
"#: src/editor/panel_icons.cxx:82";
"msgid ""Duplicate current object (d)""";
"msgstr ""Aktuelles Object kopieren (d)""";
"";
"#: src/editor/panel_icons.cxx:94";
"msgid ""Edit Level Properties""";
"msgstr ""Leveleigenschaften ~e4ndern""";
"";
"#: src/editor/panel_icons.cxx:106";
"msgid ""Edit Object Properties""";
"msgstr ""Objekteigenschaften ~e4ndern""";
"";
"#: src/editor/panel_icons.cxx:118";
"msgid ""Start the level and test it (F4)""";
"msgstr ""Level starten und testen (F4)""";
"";
"#: src/editor/panel_icons.cxx:130";
"msgid ""Create a new level from scratch""";
"msgstr ""Neuen Level erstellen""";
"";
"#: src/editor/panel_icons.cxx:142";
"msgid ""Insert an object (Insert)""";
"msgstr ""Objekt einfuegen (Einfg)""";
"";
"#: src/editor/panel_icons.cxx:154";
"msgid ""Zoom into a region""";
"msgstr ""Einen Bereich vergr~f6ssern""";
"";
"#: src/editor/panel_icons.cxx:166";
"msgid ""Zoom in""";
"msgstr ""Vergroessern""";
"";
"#: src/editor/panel_icons.cxx:179";
"msgid ""Zoom out""";
"msgstr ""Verkleinern""";
"";
"#: src/editor/panel_icons.cxx:192";
"msgid ""Setup Number of Actions""";
"msgstr ""Stelle die Anzahl der F~e4higkeiten ein""";
"";
"#: src/editor/panel_icons.cxx:204";
"msgid ""Display Help Screen (F1)""";
"msgstr ""Hilfe Anzeigen (F1)""";
"";
"#: src/exit_menu.cxx:48";
"msgid ""Yes""";
"msgstr ""Ja""";
"";
"#: src/exit_menu.cxx:81";
"msgid ""No""";
"msgstr ""Nein""";
"";
"#: src/exit_menu.cxx:114";
"msgid ""Exit Pingus?""";
"msgstr ""Pingus beenden?""";
"";
"#: src/fps_counter.cxx:48";
"msgid ""unknown""";
"msgstr ""unbekannt""";
"";
"#: src/game_time.cxx:70";
"msgid ""unlimited""";
"msgstr ""unbegrenzt""";
"";
"#: src/level_desc.cxx:74";
"msgid ""Designed by """;
"msgstr ""Erstellt von """;
"";
"#: src/level_desc.cxx:79";
"#, c-format";
"msgid ""Pingus to Save: %d""";
"msgstr ""Zu rettende Pingus: %d""";
"";
"#: src/level_desc.cxx:81";
"#, c-format";
"msgid ""Number of Pingus: %d""";
"msgstr ""Anzahl an Pingus: %d""";
"";
"#: src/level_desc.cxx:86";
"msgid ""Loading...""";
"msgstr ""Ladevorgang l~e4uft...""";
"";
"#: src/level_desc.cxx:89";
"msgid ""Loading finished. Press a mouse button to start the level""";
"msgstr """"";
"""Ladevorgang abgeschlossen. Dr~fccke eine Maus Taste um den Level zu starten""";
"";
"#: src/level_result.cxx:61";
"msgid ""Results:""";
"msgstr ""Ergebnisse:""";
"";
"#: src/level_result.cxx:67";
"#, c-format";
"msgid ""Pingus saved:   %3d/%3d""";
"msgstr ""Gerettete Pingus: %3d/%3d""";
"";
"#: src/level_result.cxx:72";
"#, c-format";
"msgid ""Pingus died:  %3d/%3d""";
"msgstr ""Tote Pingus: %3d/%3d""";
"";
"#: src/level_result.cxx:88";
"msgid ""Press button to continue...""";
"msgstr ""Knopf dr~fccken um fortzufahren""";
"";
"#: src/level_result.cxx:102";
"msgid """"";
"""As many Pingus escaped as entered the level. That's going to be hard to """;
"""beat.... unless this game becomes pornographic.""";
"msgstr """"";
"""Es wurden alle Pingu dieses Levels gerettet. Das wird hart zu schlagen """;
"""sein... es sei denn dieses Spiel wird pornographisch.""";
"";
"#: src/level_result.cxx:104";
"msgid ""Very impressive indeed.""";
"msgstr ""In der Tat sehr eindrucksvoll.""";
"";
"#: src/level_result.cxx:106";
"msgid ""Good work. Still room for improvement though.""";
"msgstr ""Gute Arbeit. Aber ~dcbung macht den Meiser!""";
"";
"#: src/level_result.cxx:108";
"msgid ""Not too shabby, not too shabby at all.""";
"msgstr ""Nicht schlecht, nicht schlecht!""";
"";
"#: src/level_result.cxx:110";
"msgid """"";
"""That was OK, but Pingu life insurance premiums have just gotten more """;
"""expensive.""";
"msgstr """"";
"""Das war ok, aber die Lebensversicherungspr~e4mien f~fcr Pingus sind gerade """;
"""gestiegen.""";
"";
"#: src/level_result.cxx:112";
"msgid ""Maybe this level calls for a different strategy.""";
"msgstr ""M~f6glicherweise verlangt dieser Level eine andere Strategie.""";
"";
"#: src/level_result.cxx:114";
"msgid ""Exactly half. Are you saving only the female ones?""";
"msgstr ""Genau die H~e4lfte! Rettest du nur die Weibchen?""";
"";
"#: src/level_result.cxx:116";
"msgid ""If I were a Pingu, I never would have left that entrance.""";
"msgstr ""Wenn ich ein Pingu w~e4re, h~e4tte ich den Eingang nie verlassen.""";
"";
"#: src/level_result.cxx:118";
"msgid ""Maybe you would feel more at home playing Quake.""";
"msgstr ""M~f6glicherweise w~e4re es besser Quake zu spielen?""";
"";
"#: src/level_result.cxx:120";
"msgid """"";
"""Maybe this level calls for a different strategy. Like attempting to save """;
"""them, for example.""";
"msgstr """"";
"""Es kann sein, dass wir etwas anderes versuchen sollten.  Vielleicht k~f6nnten """;
"""wir ja die Pingus retten?""";
"";
"#: src/level_result.cxx:122";
"msgid ""Ever considered a career as a Pingu exterminator?""";
"msgstr ""Hast du mal ~fcber eine Karriere als Pingu Zerst~f6rer nachgedacht?""";
"";
"#: src/level_result.cxx:124";
"msgid ""You missed one! What's your excuse!?""";
"msgstr ""Du hast einen vergessen! Was ist deine Entschuldigung?""";
"";
"#: src/level_result.cxx:126";
"msgid ""Please reassure me that you hit the Armageddon button.""";
"msgstr ""Best~e4tige mir bitte, dass das die Armageddon Taste war.""";
"";
"#: src/level_result.cxx:128";
"msgid ""You've got a negative save/total value, something is buggy.""";
"msgstr ""Ein negativer Wert? Hier liegt ein Fehler vor.""";
"";
"#: src/menu_button.cxx:181";
"msgid ""..:: The people who brought this game to you ::..""";
"msgstr ""..:: Die Leute, die fuer dieses Spiel verantwortlich sind... ::..""";
"";
"#: src/menu_button.cxx:184";
"msgid ""Credits""";
"msgstr ""Mitwirkende""";
"";
"#: src/menu_button.cxx:216";
"msgid ""..:: Takes you to the options menu ::..""";
"msgstr ""..:: Einstellungen, Cheats und Debugging stuff ::..""";
"";
"#: src/menu_button.cxx:219";
"msgid ""Options""";
"msgstr ""Einstellungen""";
"";
"#: src/menu_button.cxx:252";
"msgid ""..:: Bye, bye ::..""";
"msgstr ""..:: Auf Wiedersehen ::..""";
"";
"#: src/menu_button.cxx:255";
"msgid ""Exit""";
"msgstr ""Beenden""";
"";
"#: src/menu_button.cxx:306";
"msgid ""..:: Launch the level editor ::..""";
"msgstr ""..:: Erstelle deinen eigenen Level ::..""";
"";
"#: src/menu_button.cxx:309";
"msgid ""Create a""";
"msgstr ""Bau einen""";
"";
"#: src/menu_button.cxx:310";
"msgid ""Level""";
"msgstr ""Level""";
"";
"#: src/menu_button.cxx:344";
"msgid ""..:: Start the game ::..""";
"msgstr ""..:: das Spiel starten ::..""";
"";
"#: src/menu_button.cxx:345";
"msgid ""Start""";
"msgstr ""Start""";
"";
"#: src/menu_button.cxx:375";
"msgid ""..:: Start a contrib level ::..""";
"msgstr ""..:: Contrib level Spielen ::..""";
"";
"#: src/menu_button.cxx:377";
"msgid ""Contrib""";
"msgstr ""Levels""";
"";
"#: src/menu_button.cxx:399";
"msgid ""..:: Multiplayer Modes... experimental stuff ::..""";
"msgstr ""..:: Mehrspieler Modus ::.. Experimentelles Zeug ::..""";
"";
"#: src/menu_button.cxx:401";
"msgid ""Multi""";
"msgstr ""Multi""";
"";
"#: src/pingu_enums.cxx:35";
"msgid ""Angel""";
"msgstr ""Angel""";
"";
"#: src/pingu_enums.cxx:36";
"msgid ""Basher""";
"msgstr ""Basher""";
"";
"#: src/pingu_enums.cxx:37";
"msgid ""Blocker""";
"msgstr ""Blocker""";
"";
"#: src/pingu_enums.cxx:38";
"msgid ""Boarder""";
"msgstr ""Boarder""";
"";
"#: src/pingu_enums.cxx:39";
"msgid ""Bomber""";
"msgstr ""Bomber""";
"";
"#: src/pingu_enums.cxx:41";
"msgid ""Climber""";
"msgstr ""Climber""";
"";
"#: src/pingu_enums.cxx:42";
"msgid ""Digger""";
"msgstr ""Digger""";
"";
"#: src/pingu_enums.cxx:43";
"msgid ""Drown""";
"msgstr ""Drown""";
"";
"#: src/pingu_enums.cxx:44";
"msgid ""Exiter""";
"msgstr ""Exiter""";
"";
"#: src/pingu_enums.cxx:45";
"msgid ""Faller""";
"msgstr ""Faller""";
"";
"#: src/pingu_enums.cxx:46";
"msgid ""Floater""";
"msgstr ""Floater""";
"";
"#: src/pingu_enums.cxx:47";
"msgid ""Jumper""";
"msgstr ""Jumper""";
"";
"#: src/pingu_enums.cxx:48";
"msgid ""Laserkill""";
"msgstr ""Laserkill""";
"";
"#: src/pingu_enums.cxx:49";
"msgid ""Miner""";
"msgstr ""Miner""";
"";
"#: src/pingu_enums.cxx:50";
"msgid ""Rocketlauncher""";
"msgstr ""Rocketlauncher""";
"";
"#: src/pingu_enums.cxx:51";
"msgid ""Slider""";
"msgstr ""Slider""";
"";
"#: src/pingu_enums.cxx:52";
"msgid ""Smashed""";
"msgstr ""Smashed""";
"";
"#: src/pingu_enums.cxx:53";
"msgid ""Splashed""";
"msgstr ""Splashed""";
"";
"#: src/pingu_enums.cxx:54";
"msgid ""Superman""";
"msgstr ""Superman""";
"";
"#: src/pingu_enums.cxx:55";
"msgid ""Teleported""";
"msgstr ""Teleported""";
"";
"#: src/pingu_enums.cxx:56";
"msgid ""Waiter""";
"msgstr ""Waiter""";
"";
"#: src/pingu_enums.cxx:57";
"msgid ""Walker""";
"msgstr ""Walker""";
"";
"#: src/pingus_counter.cxx:52";
"#, c-format";
"msgid ""Released:%3d/%-3d   Out:%3d   Saved:%3d/%-3d""";
"msgstr ""Rein: %3d/%-3d  Raus: %3d Gerettet: %3d/%-3d""";
"";
"#: src/pingus_main.cxx:90";
"msgid ""| segfault_handler: catched a SIGSEGV.""";
"msgstr ""| segfault_handler: SIGSEGV abgefangen.""";
"";
"#: src/pingus_main.cxx:92";
"msgid ""| Woops, Pingus just crashed, congratulations you've found a bug.""";
"msgstr """"";
"""| Woops, Pingus ist abgest~fcrzt. Gratuliere, du hast einen Bug gefunden.""";
"";
"#: src/pingus_main.cxx:93";
"msgid """"";
"""| Please write a little bug report to <grumbel@gmail.com>, include informations""";
"msgstr """"";
"""| Bitte schreibe einen kleinen Report an <pingus-devel@nongnu.org, mit """;
"""Informationen,""";
"";
"#: src/pingus_main.cxx:94";
"msgid ""| where exacly the SIGSEGV occured and how to reproduce it.""";
"msgstr ""| wo genau der SIGSEGV auftrat und wie man ihn reproduziert.""";
"";
"#: src/pingus_main.cxx:95";
"msgid ""| Also try include a backtrace, you can get it like this:""";
"msgstr ""| Versuche auch einen backtrace zu erstellen, du bekommst ihn so:""";
"";
"#: src/pingus_main.cxx:101";
"msgid ""| If that doesn't work, try this:""";
"msgstr ""| Wenn das nicht geht, versuche dies:""";
"";
"#: src/pingus_main.cxx:105";
"msgid ""| [play until it crashes again]""";
"msgstr ""| [spiele bis es wieder crasht]""";
"";
"#: src/pingus_main.cxx:113";
"msgid ""| Warning: Pingus recieved a SIGINT, exiting now.""";
"msgstr ""| Warnung: Pingus erhielt einen SIGINT, beende jetzt.""";
"";
"#: src/pingus_main.cxx:301";
"msgid ""Warning: Larger resolution than 800x600 will result in visual problems""";
"msgstr """"";
"""Warnung: Aufl~f6sungen gr~f6sser als 800x600 k~f6nnen zu visuellen Problemen f~fchren""";
"";
"#: src/pingus_main.cxx:488";
"msgid ""Unknow char: """;
"msgstr ""Unbekannter Buchstabe: """;
"";
"#: src/pingus_main.cxx:489";
"msgid ""Usage: """;
"msgstr ""Benutzung: """;
"";
"#: src/pingus_main.cxx:489";
"msgid "" [OPTIONS]... [LEVELFILE]""";
"msgstr ""[OPTIONEN]... [LEVELDATEI]""";
"";
"#: src/pingus_main.cxx:492";
"msgid ""Options:""";
"msgstr ""Einstellungen""";
"";
"#: src/pingus_main.cxx:494";
"msgid ""Set the resolution for pingus (default: 800x600)""";
"msgstr ""Setze die Aufl~f6sung f~fcr Pingus (Standard: 800x600)""";
"";
"#: src/pingus_main.cxx:495";
"msgid ""Displays this help""";
"msgstr ""Hilfe Anzeigen""";
"";
"#: src/pingus_main.cxx:496";
"msgid ""Disable intro""";
"msgstr ""Intro abschalten""";
"";
"#: src/pingus_main.cxx:497";
"msgid ""Use OpenGL""";
"msgstr ""OpenGL benutzen""";
"";
"#: src/pingus_main.cxx:499";
"msgid ""Start in Window Mode""";
"msgstr ""Pingus im Fenster starten""";
"";
"#: src/pingus_main.cxx:500";
"msgid ""Start in Fullscreen""";
"msgstr ""Pingus im Vollbild starten""";
"";
"#: src/pingus_main.cxx:504";
"msgid ""FILE      """;
"msgstr ""Datei     """;
"";
"#: src/pingus_main.cxx:504";
"msgid ""Load a custom level from FILE""";
"msgstr ""Einen Level aus DATEI laden""";
"";
"#: src/pingus_main.cxx:505";
"msgid ""FILE        """;
"msgstr ""Datei      """;
"";
"#: src/pingus_main.cxx:505";
"msgid ""Load a custom worldmap from FILE""";
"msgstr ""Eine Weltkarte aus DATEI laden""";
"";
"#: src/pingus_main.cxx:506";
"msgid ""Print some more messages to stdout, can be set""";
"msgstr ""Gibt mehr Nachrichten auf stdout aus, kann""";
"";
"#: src/pingus_main.cxx:507";
"msgid ""multiple times to increase verbosity""";
"msgstr ""mehrmals gesetzt werden, um die Genauigkeit zu erh~f6hen""";
"";
"#: src/pingus_main.cxx:508";
"msgid ""Prints version number and exit""";
"msgstr ""Version ausgeben und beenden""";
"";
"#: src/pingus_main.cxx:509";
"msgid ""Launch the Level editor (experimental)""";
"msgstr ""Level Editor starten (Experimentell)""";
"";
"#: src/pingus_main.cxx:510";
"msgid ""Disable automatic scrolling""";
"msgstr ""Automatisches Scrollen abschalten""";
"";
"#: src/pingus_main.cxx:512";
"msgid ""Enable software cursor""";
"msgstr ""Aktiviere Software Cursor""";
"";
"#: src/pingus_main.cxx:515";
"msgid ""Don't read ~7e/.pingus/config""";
"msgstr ""~7e/.pingus/config nicht einlesen""";
"";
"#: src/pingus_main.cxx:516";
"msgid ""FILE       """;
"msgstr ""Datei      """;
"";
"#: src/pingus_main.cxx:516";
"msgid ""Read config from FILE (default: ~7e/.pingus/config)""";
"msgstr ""Konfiguration aus DATEI lesen""";
"";
"#: src/pingus_main.cxx:517";
"msgid ""reduce CPU usage, might speed up the game on slower machines""";
"msgstr """"";
"""reduziere CPU Belastung, k~f6nnte das Spiel auf langsamen Rechnern """;
"""beschleunigen""";
"";
"#: src/pingus_main.cxx:518";
"msgid ""Uses the controller given in FILE""";
"msgstr ""Controller aus FILE benutzen""";
"";
"#: src/pingus_main.cxx:520";
"msgid ""Debugging and experimental stuff:""";
"msgstr ""Debug und Experimentelles Zeug""";
"";
"#: src/pingus_main.cxx:521";
"msgid ""Enables some features, only interesting programmers""";
"msgstr ""Aktiviere einige Funktionen, nur f~fcr Programmierer""";
"";
"#: src/pingus_main.cxx:522";
"msgid ""Enable the output of debugging infos, possible""";
"msgstr ""Aktiviere die Ausgabe von Debug Informationen, m~f6gliche""";
"";
"#: src/pingus_main.cxx:523";
"msgid ""OPTION's are tiles, gametime, actions, sound, resources, gui,""";
"msgstr ""Optionen sind tiles, gametime, actions, sound, resources, gui,""";
"";
"#: src/pingus_main.cxx:525";
"msgid ""Skip at least N frames, larger values speed the game up""";
"msgstr """"";
"""~dcberspringe mindestens N Bilder, gr~f6~dfere Werte erh~f6hen die Geschwindigkeit""";
"";
"#: src/pingus_main.cxx:526";
"msgid ""Skip at most N frames""";
"msgstr ""~dcberspringe maximal N Bilder""";
"";
"#: src/pingus_main.cxx:527";
"msgid ""Set both min and max frameskip to N""";
"msgstr ""Setze sowohl minimalen als auch maximalen Bildsprung auf N""";
"";
"#: src/pingus_main.cxx:528";
"msgid ""Set the game speed (0=fastest, >0=slower)""";
"msgstr ""Setze die Geschwindigkeit (0=schnellste, >0=langsamer)""";
"";
"#: src/pingus_main.cxx:529";
"msgid ""Prints the fps to stdout""";
"msgstr ""Schreibe die fps auf stdout""";
"";
"#: src/pingus_main.cxx:530";
"msgid ""Set the size of the map tiles (default: 32)""";
"msgstr ""Setze die Gr~f6~dfe der Kartenteile (Standard: 32)""";
"";
"#: src/pingus_main.cxx:531";
"msgid ""Disable some cpu intensive features""";
"msgstr ""Deaktivere einige CPU intensive Funktionen""";
"";
"#: src/pingus_main.cxx:532";
"msgid ""Reduces the CPU usage by issuing sleep()""";
"msgstr ""Reduziert die CPU Belastung durch Verwendung von sleep()""";
"";
"#: src/pingus_main.cxx:534";
"msgid ""Demo playing and recording:""";
"msgstr ""Demo aufzeichnung und wiedergabe:""";
"";
"#: src/pingus_main.cxx:535";
"msgid ""FILE     """;
"msgstr ""Datei    """;
"";
"#: src/pingus_main.cxx:535";
"msgid ""Plays a demo session from FILE""";
"msgstr ""Spielt eine Demo Sitzung aus FILE""";
"";
"#: src/pingus_main.cxx:537";
"msgid ""Record demos for each played level""";
"msgstr ""Nehme Demos f~fcr jeden gespielten Level auf""";
"";
"#: src/pingus_main.cxx:539";
"msgid ""Sound:""";
"msgstr ""Sound""";
"";
"#: src/pingus_main.cxx:540";
"msgid ""Disable sound""";
"msgstr ""Sound deaktivieren""";
"";
"#: src/pingus_main.cxx:541";
"msgid ""Disable music""";
"msgstr ""Musik deaktivieren""";
"";
"#: src/pingus_main.cxx:720";
"msgid ""clanVorbis support:           ok""";
"msgstr ""clanVorbis Unterst~fctzung:    ok""";
"";
"#: src/pingus_main.cxx:722";
"msgid ""clanVoribs support:  missing (.ogg music files will not be playable)""";
"msgstr """"";
"""clanVorbis Unterst~fctzung: fehlt (.ogg Musik Datein k~f6nnen nicht abgespielt """;
"""werden)""";
"";
"#: src/pingus_main.cxx:726";
"msgid ""clanMikMod support:           ok""";
"msgstr ""clanMikMod Unterst~fctzung:    ok""";
"";
"#: src/pingus_main.cxx:728";
"msgid ""clanMikMod support:  missing (music files will not be playable)""";
"msgstr """"";
"""clanMikMod Unters~fctzung: fehlt (Musikdateien k~f6nnen nicht abgespielt werden)""";
"";
"#: src/pingus_main.cxx:732";
"msgid ""getext support:               ok""";
"msgstr ""gettext Unterst~fctzung:       ok""";
"";
"#: src/pingus_main.cxx:733";
"msgid ""gettext language:        english""";
"msgstr ""gettext Sprache:        deutsch""";
"";
"#: src/pingus_main.cxx:739";
"msgid ""sound support:           enabled""";
"msgstr ""Sound Unterst~fctzung:         an""";
"";
"#: src/pingus_main.cxx:741";
"msgid ""sound support:          disabled""";
"msgstr ""Sound Unterst~fctzung:        aus""";
"";
"#: src/pingus_main.cxx:744";
"msgid ""music support:           enabled""";
"msgstr ""Musik Unterst~fctzung:         an""";
"";
"#: src/pingus_main.cxx:746";
"msgid ""music support:          disabled""";
"msgstr ""Musik Unterst~fctzung:        aus""";
"";
"#: src/pingus_main.cxx:748";
"msgid ""resolution set to:       """;
"msgstr ""Aufl~f6sung:              """;
"";
"#: src/pingus_main.cxx:749";
"msgid ""fullscreen:              """;
"msgstr ""Vollbild:           """;
"";
"#: src/pingus_main.cxx:750";
"msgid "" enabled""";
"msgstr ""aktiviert""";
"";
"#: src/pingus_main.cxx:750";
"msgid ""disabled""";
"msgstr ""d~e4ktiviert""";
"";
"";
"#: src/pingus_main.cxx:751";
"msgid ""reenabled""";
"msgstr """""
  ]%string "".

(** /repo/test/po/de_AT.po, 854 bytes *)
Definition po_de_AT : bytes := Eval vm_compute in text [
"# SOME DESCRIPTIVE TITLE.";
"# Copyright (C) YEAR Free Software Foundation, Inc.";
"# FIRST AUTHOR <EMAIL@ADDRESS>, YEAR.";
"#";
"#, fuzzy";
"msgid """"";
"msgstr """"";
"""Project-Id-Version: PACKAGE VERSION\n""";
"""PO-Revision-Date: 2009-02-02 12:07+0100\n""";
"""Last-Translator: FULL NAME <EMAIL@ADDRESS>\n""";
"""Language-Team: LANGUAGE <LL@li.org>\n""";
"""MIME-Version: 1.0\n""";
"""Content-Type: text/plain; charset=UTF-8\n""";
"""Content-Transfer-Encoding: 8bit\n""";
"""Plural-Forms: nplurals=2; plural=( n != 1);\n""";
"";
"msgid ""umlaut""";
"msgstr ""~c3~84~c3~96~c3~9c~c3~a4~c3~b6~c3~bc~c3~9f~e2~82~ac~c2~a2""";
"";
"msgid ""You got %d error.""";
"msgid_plural ""You got %d error.""";
"msgstr[0] ""Du hast %d fehler""";
"msgstr[1] ""Du hast %d fehlers""";
"";
"msgid ""found %d fatal error""";
"msgid_plural ""found %d fatal errors""";
"msgstr[0] ""s'ha trobat %d error f~c3~a4tal""";
"msgstr[1] ""s'han trobat %d errors f~c3~a4tals""";
"";
"";
"msgid ""I ate %d pizza.""";
"msgid_plural ""I ate %d pizzas.""";
"msgstr[0] """""
  ]%string "".

(** /repo/test/po/fr.po, 539 bytes *)
Definition po_fr : bytes := Eval vm_compute in text [
"# SOME DESCRIPTIVE TITLE.";
"# Copyright (C) YEAR Free Software Foundation, Inc.";
"# FIRST AUTHOR <EMAIL@ADDRESS>, YEAR.";
"#";
"#, fuzzy";
"msgid """"";
"msgstr """"";
"""Project-Id-Version: PACKAGE VERSION\n""";
"""PO-Revision-Date: 2009-01-28 08:45+0100\n""";
"""Last-Translator: FULL NAME <EMAIL@ADDRESS>\n""";
"""Language-Team: LANGUAGE <LL@li.org>\n""";
"""MIME-Version: 1.0\n""";
"""Content-Type: text/plain; charset=utf-8\n""";
"""Content-Transfer-Encoding: 8bit\n""";
"";
"#: src/actions/bridger.cxx:48 src/actions/bridger.cxx:232";
"#: src/pingu_enums.cxx:40";
"msgid ""invalid""";
"msgstr ""ung~c3~bctig""";
""
  ]%string "".

(** /repo/test/helloworld/de.po, 1430 bytes *)
Definition hello_de : bytes := Eval vm_compute in text [
"# SOME DESCRIPTIVE TITLE.";
"# Copyright (C) YEAR Free Software Foundation, Inc.";
"# FIRST AUTHOR <EMAIL@ADDRESS>, YEAR.";
"#";
"#, fuzzy";
"msgid """"";
"msgstr """"";
"""Project-Id-Version: PACKAGE VERSION\n""";
"""Report-Msgid-Bugs-To: \n""";
"""POT-Creation-Date: 2009-01-30 08:01+0100\n""";
"""PO-Revision-Date: 2009-01-30 08:39+0100\n""";
"""Last-Translator: FULL NAME <EMAIL@ADDRESS>\n""";
"""Language-Team: LANGUAGE <LL@li.org>\n""";
"""MIME-Version: 1.0\n""";
"""Content-Type: text/plain; charset=UTF-8\n""";
"""Content-Transfer-Encoding: 8bit\n""";
"";
"#: helloworld.cpp:7";
"msgid ""Short Hello World""";
"msgstr ""kurzes Hallo Welt""";
"";
"#: helloworld.cpp:8 helloworld.cpp:14";
"#, fuzzy";
"msgid ""Hello World""";
"msgid_plural ""Hello Worlds""";
"msgstr[0] ""Hallo Welt (singular)""";
"msgstr[1] ""Hallo Welt (plural)""";
"";
"#: helloworld.cpp:10 helloworld.cpp:16";
"#, fuzzy";
"msgctxt """"";
"msgid ""Hello World""";
"msgid_plural ""Hello Worlds""";
"msgstr[0] ""Hallo Welt (singular) mit leerem Kontext""";
"msgstr[1] ""Hallo Welt (plural) mit leerem Kontext""";
"";
"#: helloworld.cpp:11 helloworld.cpp:17";
"msgctxt ""console""";
"msgid ""Hello World""";
"msgid_plural ""Hello Worlds""";
"msgstr[0] ""Hallo Welt (singular) in der Console""";
"msgstr[1] ""Hallo Welt (plural) in der Console""";
"";
"#: helloworld.cpp:13";
"msgid ""gui""";
"msgid_plural ""Hello World""";
"msgstr[0] ""Hallo Welt (singular)""";
"msgstr[1] ""Hallo Welt (plural)""";
"";
"#: helloworld.cpp:18";
"#, fuzzy";
"msgctxt ""gui""";
"msgid ""Hello World""";
"msgid_plural ""Hello Worlds""";
"msgstr[0] ""Hallo Welt im GUI""";
"msgstr[1] ""Hallo Welt (plural) im GUI"""
  ]%string "".

(** /repo/test/level/de.po, 12514 bytes *)
Definition level_de : bytes := Eval vm_compute in text [
"# SOME DESCRIPTIVE TITLE.";
"# Copyright (C) YEAR Free Software Foundation, Inc.";
"# FIRST AUTHOR <EMAIL@ADDRESS>, YEAR.";
"#";
"#, fuzzy";
"msgid """"";
"msgstr """"";
"""Project-Id-Version: PACKAGE VERSION\n""";
"""PO-Revision-Date: YEAR-MO-DA HO:MI +ZONE\n""";
"""Last-Translator: FULL NAME <EMAIL@ADDRESS>\n""";
"""Language-Team: LANGUAGE <LL@li.org>\n""";
"""MIME-Version: 1.0\n""";
"""Content-Type: text/plain; charset=CHARSET\n""";
"""Content-Transfer-Encoding: 8bit\n""";
"";
"#: src/pingus_main.cxx:760";
"msgid ""PingusMain: Starting Main: """;
"msgstr ""PingusMain: Hauptteil wird gestartet: """;
"";
"#: src/pingus_main.cxx:805";
"msgid ""PingusMain: Levelfile not found, ignoring: """;
"msgstr ""PingusMain: Leveldatei nicht gefunden, Fehler wird ignoriert: """;
"";
"#: src/pingus_main.cxx:909";
"msgid ""Error caught from ClanLib: """;
"msgstr ""ClanLib Fehler abgefangen: """;
"";
"#: src/pingus_main.cxx:913";
"msgid ""Error caught from Pingus: """;
"msgstr ""Pingus Fehler wurde abgefangen: """;
"";
"#: src/pingus_main.cxx:917";
"msgid ""Pingus: Out of memory!""";
"msgstr ""Pingus: Speicher ist ausgegangen""";
"";
"#: src/pingus_main.cxx:921";
"msgid ""Pingus: Standard exception caught!:\n""";
"msgstr ""Pingus: Standard Ausnahme abgefangen!:\n""";
"";
"#: src/pingus_main.cxx:925";
"msgid ""Pingus: Unknown throw caught!""";
"msgstr ""Pingus: Unbekannte Ausnahme abgefangen!""";
"";
"#: src/result_screen.cxx:99 src/start_screen.cxx:111";
"msgid ""Abort""";
"msgstr ""Abbruch""";
"";
"#: src/result_screen.cxx:167";
"msgid ""Retry""";
"msgstr ""Versuche erneut""";
"";
"#: src/result_screen.cxx:175";
"msgid ""Success!""";
"msgstr ""Erfolg!""";
"";
"#: src/result_screen.cxx:182";
"msgid ""Failure!""";
"msgstr ""Fehler!""";
"";
"#: src/result_screen.cxx:191";
"msgid ""Perfect! You saved everyone possible - great!""";
"msgstr ""Perfekt! Du hast alle gerettet!""";
"";
"#: src/result_screen.cxx:193";
"msgid ""No-one got killed, pretty good work.""";
"msgstr ""Keiner wurde get~f6tet, sehr gute Arbeit.""";
"";
"#: src/result_screen.cxx:195";
"msgid """"";
"""You saved exactly what you needed - you made it, but\n""";
"""maybe you can do better?""";
"msgstr """"";
"""Du hast so viele gerettet wie n~f6tig. Du hast es\n""";
"""geschafft, aber vielleicht kannst Du es noch besser?""";
"";
"#: src/result_screen.cxx:198";
"msgid ""Not everybody was saved, but still good work!""";
"msgstr ""Nicht alle wurden gerettet, aber trotzdem noch gute Arbeit!""";
"";
"#: src/result_screen.cxx:200";
"msgid ""What can I say, you made it - congratulations!""";
"msgstr ""Was soll ich sagen, Du hast es geschafft. Gratuliere!""";
"";
"#: src/result_screen.cxx:205";
"msgid ""You killed everybody, not good.""";
"msgstr ""Du hast alle get~f6tet, nicht gut.""";
"";
"#: src/result_screen.cxx:207";
"msgid ""No-one got saved - I know you can do better.""";
"msgstr ""Keiner wurde gerettet, ich wei~df, dass du es besser kannst.""";
"";
"#: src/result_screen.cxx:209";
"msgid """"";
"""You didn't save enough, but you saved a few.  Next\n""";
"""time you might do better.""";
"msgstr """"";
"""Du hast nicht genug gerettet, aber immerhin ein paar.\n""";
"""N~e4chstes Mal machst du es bestimmt besser.""";
"";
"#: src/result_screen.cxx:212";
"msgid ""Only one more and you would have made it - try again!""";
"msgstr ""Einer mehr und du hast es, versuch es nochmal!""";
"";
"#: src/result_screen.cxx:214";
"msgid ""Only a handful more and you would have made it - try again!""";
"msgstr ""Nur ein paar mehr und du h~e4ttest es, versuch es nochmal!""";
"";
"#: src/result_screen.cxx:216";
"msgid ""Better luck next time!""";
"msgstr ""Mehr Gl~fcck f~fcrs n~e4chste Mal!""";
"";
"#: src/result_screen.cxx:232";
"msgid ""Saved: """;
"msgstr ""Gerettet: """;
"";
"#: src/result_screen.cxx:236";
"msgid ""Died: """;
"msgstr ""Get~f6tet: """;
"";
"#: src/result_screen.cxx:240";
"msgid ""Time left: """;
"msgstr ""Verbliebene Zeit: """;
"";
"#: src/screenshot.cxx:45";
"msgid ""Screenshot: Saving screenshot to: """;
"msgstr ""Screenshot: Speichere Screenshot als: """;
"";
"#: src/screenshot.cxx:47";
"msgid ""Screenshot: Screenshot is done.""";
"msgstr ""Screenshot: Screenshot wurde erstellt.""";
"";
"#: src/screenshot.cxx:53";
"msgid ""Screenshot: Couldn't save screenshot""";
"msgstr ""Screenshot: Screenshot konnte nicht gespeichert werden""";
"";
"#: src/screenshot.cxx:138";
"msgid ""Screenshot: Couldn't write file: """;
"msgstr ""Screenshot: Datei konnte nicht geschrieben werden: """;
"";
"#: src/spot_map.cxx:286";
"#, c-format";
"msgid ""Image has wrong color depth: %d""";
"msgstr ""Bild hat falsche Farbtiefe: %d""";
"";
"#: src/start_screen.cxx:75";
"msgid ""Ok""";
"msgstr ""Ok""";
"";
"#: src/start_screen.cxx:158";
"msgid ""Number of Pingus: """;
"msgstr ""Anzahl an Pingus: """;
"";
"#: src/start_screen.cxx:161";
"msgid ""Number to Save: """;
"msgstr ""Zu rettende Pingus: """;
"";
"#: src/start_screen.cxx:164";
"msgid ""Time: """;
"msgstr ""Zeit: """;
"";
"#: src/start_screen.cxx:167";
"msgid ""Difficulty:""";
"msgstr ""Schwierigkeitsgrad:""";
"";
"#: src/start_screen.cxx:175";
"msgid ""Author: """;
"msgstr ""Autor: """;
"";
"#: src/start_screen.cxx:178";
"msgid ""Filename: """;
"msgstr ""Dateiname: """;
"";
"#: src/story.cxx:41";
"msgid ""The Journey Continues""";
"msgstr ""Die Reise geht weiter""";
"";
"#: src/story.cxx:46";
"msgid """"";
"""Now after you and the Pingus have learned the basics and\n""";
"""practiced a bit it is time to move on and begin the journey into\n""";
"""the world. Since the ice floe with which the Pingus traveled to the\n""";
"""Tutorial Island isn't going to hold on the whole way into the warmer\n""";
"""climates the Pingus have to find something else to guide\n""";
"""them on their journey.\n""";
"msgstr """"";
"""Nachdem Du und die Pingus nun die Grundlagen gelernt und\n""";
"""ein wenig ~dcbung haben, ist es an der Zeit, weiter zu gehen und die\n""";
"""Reise in die Welt zu beginnen. Da die Scholle, mit der die Pingus zum\n""";
"""Tutorial Island reisten, nicht den ganzen Weg in die w~e4rmeren Regionen\n""";
"""halten wird, m~fcssen die Pingus etwas anderes finden, um sie auf der\n""";
"""Reise zu begleiten.\n""";
"";
"#: src/story.cxx:58";
"msgid """"";
"""But as the eldest have said, the Tutorial Island provides not\n""";
"""only a good way to practice, but it is also the starting point into\n""";
"""the world. After some searching the Pingus discovered the meaning\n""";
"""of this, and they found the large tree at the end of the island\n""";
"""which gave them wood to construct a float.\n""";
"msgstr """"";
"""Aber wie die Weisen sagten, ist Tutorial Island nicht nur\n""";
"""eine M~f6glichkeit zum ~fcben, es ist auch der erste Schritt in\n""";
"""die Welt, denn das Holz der B~e4ume am Ende der Insel liefert\n""";
"""gutes Material, um ein Flo~df zu bauen.\n""";
"";
"#: src/story.cxx:69";
"msgid """"";
"""So the Pingus set out and constructed some large rafts, enough\n""";
"""to carry them all. After also packing a bunch of provisions\n""";
"""they were prepared to start their journey and leave\n""";
"""their familiar ground and enter the unknown parts of the world.\n""";
"msgstr """"";
"""So gingen die Pingus hin und bauten ein paar gro~dfe\n""";
"""Fl~f6~dfe, genug, um alle zu tragen. Nachdem sie auch noch einigen\n""";
"""Proviant eingepackt hatten, waren sie endlich bereit, ihre Reise zu\n""";
"""beginnen, den bekannten Bereich zu verlassen und die unbekannten\n""";
"""Bereiche der Welt zu betreten.\n""";
"";
"#: src/story.cxx:79";
"msgid """"";
"""So the Pingus sit on their raft, worrying about what's to come and\n""";
"""where to go, while floating into the sunset.\n""";
"""\n""";
"""To be continued...""";
"msgstr """"";
"""So sa~dfen die Pingus nur auf ihrem Flo~df und sorgten sich, was denn nun\n""";
"""kommen m~f6ge, w~e4hrend sie in den Sonnenuntergang trieben.\n""";
"""\n""";
"""Fortsetzung folgt...""";
"";
"#: src/story.cxx:91";
"msgid ""The Journey Begins""";
"msgstr ""Die Reise beginnt""";
"";
"#: src/story.cxx:96";
"msgid """"";
"""For a long time, the Pingus have lived happily in peace on the\n""";
"""South Pole along with all the other animals. Everything was in\n""";
"""balance and it seemed like nothing could disrupt their peace.  The\n""";
"""Pingus were happy and it seemed like this could never end.\n""";
"msgstr """"";
"""Die Pingus lebten schon lange gl~fccklich und in Frieden am S~fcdpol,\n""";
"""zusammen mit all den anderen Tieren. Alles war im Gleichgewicht und\n""";
"""es schien, als k~f6nnte nichts ihren Frieden st~f6ren. Die Pingus waren\n""";
"""gl~fccklich und es schien, als w~fcrde dies niemals enden.\n""";
"";
"#: src/story.cxx:106";
"msgid """"";
"""But then one day, things began to change slowly: the sky got darker\n""";
"""and the earth got warmer. Firstly, they thought this was just a\n""";
"""normal fluctuation in the world's climate, but things seemed to get\n""";
"""worse and worse with every year.""";
"msgstr """"";
"""Aber dann, eines Tages, ver~e4nderten sich die Dinge langsam. Der\n""";
"""Himmel wurde dunkler und die Erde w~e4rmer. Zuerst dachten sie, dies\n""";
"""w~e4re nur eine normale Schwankung im Klima, aber es wurde von Jahr \n""";
"""zu Jahr immer schlimmer.""";
"";
"#: src/story.cxx:117";
"msgid """"";
"""The snow began to melt away in a few areas and food became an\n""";
"""issue. Other animals tried to leave the region to search\n""";
"""for colder areas, but the Pingus knew that this wouldn't help:\n""";
"""they knew that they had to do something about it.""";
"msgstr """"";
"""Der Schnee begann in einigen Bereichen zu schmelzen und Nahrung\n""";
"""wurde ein Problem. Andere Tiere begannen bereits, die Region zu\n""";
"""verlassen, um k~e4ltere Gebiete zu suchen. Aber die Pingus wussten,\n""";
"""dass dies nicht helfen w~fcrde, sie wussten, es musste etwas gegen\n""";
"""dieses Problem getan werden.""";
"";
"#: src/story.cxx:127";
"msgid """"";
"""So the circle of the eldest came together to decide what to do\n""";
"""about it. They decided to send out an expedition around the world\n""";
"""to find the cause of this warming. The expedition consisted of\n""";
"""hundreds of the bravest Pingus on the South Pole.""";
"msgstr """"";
"""Darum traf sich der Rat der ~c4ltesten, um zu entscheiden, was dagegen\n""";
"""getan werden sollte. Sie entschieden, eine Expedition um die Welt\n""";
"""zu senden, um den Grund f~fcr die Erw~e4rmung zu finden. Die Expedition\n""";
"""bestand aus hunderten der mutigsten Pingus des ganzen S~fcdpols.""";
"";
"#: src/story.cxx:137";
"msgid """"";
"""And they picked you to lead them on their journey around the\n""";
"""world. Since the journey will be dangerous and difficult, your\n""";
"""first goal is the Island of Mogorok, also known as the Tutorial\n""";
"""Island. According to the eldest, this island has always been the\n""";
"""first stop of Pingus that were sent out into the world.""";
"msgstr """"";
"""Und sie w~e4hlten dich, um sie auf der Reise um die Welt zu f~fchren.\n""";
"""Denn die Reise wird gef~e4hrlich und schwierig werden. Dein erstes Ziel ist\n""";
"""die Insel Mogorok, auch bekannt als Tutorial Island. Den Weisen\n""";
"""zufolge war diese Insel immer der erste Anlaufpunkt f~fcr Pingus,\n""";
"""die in die Welt gesandt wurden.""";
"";
"#: src/story.cxx:148";
"msgid """"";
"""The island consists of many areas that are ideal to teach the\n""";
"""Pingus their abilities. The Pingus can learn to build\n""";
"""bridges, climb, bash and use many other talents which they\n""";
"""will need on their long and dangerous journey.""";
"msgstr """"";
"""Die Insel besteht aus verschiedenen Regionen, die ideal sind, um die\n""";
"""F~e4higkeiten der Pingus zu trainieren. Sie k~f6nnen dort ihre F~e4hig-\n""";
"""keiten im Br~fcckenbau, klettern, graben und all die anderen Talente\n""";
"""trainieren, die sie sicher auf der langen und gef~e4hrlichen Reise\n""";
"""ben~f6tigen werden.""";
"";
"#: src/story.cxx:158";
"msgid """"";
"""While there, you can practice your abilities in commanding\n""";
"""and guiding the Pingus. You can also get familiar with\n""";
"""all the abilities the Pingus provide and learn to master them,\n""";
"""since you will need all of them on your journey around the\n""";
"""world.""";
"msgstr """"";
"""W~e4hrenddessen kannst Du auf der anderen Seite deine F~e4higkeit, die\n""";
"""Pingus zu leiten und zu f~fchren, trainieren. Du kannst dich dort auch mit\n""";
"""allen F~e4higkeiten vertraut machen, die die Pingus besitzen und\n""";
"""erlernen, sie zu meistern, denn du wirst sie sicher alle auf der\n""";
"""Reise um die Welt ben~f6tigen.""";
"";
"#: src/story.cxx:169";
"msgid """"";
"""Now that you and the Pingus have arrived at Tutorial Island it\n""";
"""is time to take command and begin your mission.\n""";
"""\n""";
"""Good Luck!""";
"msgstr """"";
"""Nun da du und die Pingus im Tutorial Island angekommen sind,\n""";
"""musst du das Kommando ~fcbernehmen und deine Mission beginnen.\n""";
"""\n""";
"""Viel Gl~fcck!""";
"";
"#: src/system.cxx:273";
"msgid ""Environment variable $HOME not set, fix that and start again.""";
"msgstr """"";
"""Umgebungs Variable $HOME ist nicht gesetzt. Setze sie und starte erneut.""";
"";
"#: src/worldmap/level_dot.cxx:174 src/worldmap/level_dot.cxx:184";
"msgid ""locked""";
"msgstr ""gesperrt""";
"";
"#: src/worldmap/manager.cxx:103";
"msgid ""Show Ending?""";
"msgstr ""Ende anzeigen?""";
"";
"#: src/worldmap/manager.cxx:133";
"msgid ""Show Story?""";
"msgstr ""Story zeigen?""";
"";
"#: src/worldmap/manager.cxx:161";
"msgid ""Leave?""";
"msgstr ""Verlassen?""";
"";
"#: src/worldmap/manager.cxx:201";
"msgid ""Enter?""";
"msgstr ""Betreten?""";
"";
"#: src/worldmap/worldmap.cxx:77";
"msgid ""WorldMap: File not found: """;
"msgstr ""Worldmap: Datei nicht gefunden: """;
"";
"#: src/worldmap/worldmap.cxx:261";
"msgid ""...walking...""";
"msgstr ""...laufe...""";
"";
"msgid ""You got %d error.\n""";
"msgid_plural ""You got %d error.\n""";
"msgstr[0] ""Du hast %d fehler\n""";
"msgstr[1] ""Du hast %d fehlers\n""";
"";
"msgid ""found %d fatal error""";
"msgid_plural ""found %d fatal errors""";
"msgstr[0] ""s'ha trobat %d error fatal""";
"msgstr[1] ""s'han trobat %d errors fatals""";
""
  ]%string "".

(** /repo/test/game/de.po, 26280 bytes *)
Definition game_de : bytes := Eval vm_compute in text [
"# SOME DESCRIPTIVE TITLE.";
"# Copyright (C) YEAR Free Software Foundation, Inc.";
"# FIRST AUTHOR <EMAIL@ADDRESS>, YEAR.";
"#";
"msgid """"";
"msgstr """"";
"""Project-Id-Version: Pingus 0.6.0\n""";
"""Report-Msgid-Bugs-To: \n""";
"""POT-Creation-Date: 2004-04-09 18:37+0000\n""";
"""PO-Revision-Date: 2003-04-15 17:31+0200\n""";
"""Last-Translator: David Philippi <david@torangan.de>\n""";
"""Language-Team: David Philippi <david@torangan.de>, Ingo Ruhnke <grumbel@gmx.""";
"""de>, Giray Devlet <giray@devlet.cc>\n""";
"""MIME-Version: 1.0\n""";
"""Content-Type: text/plain; charset=ISO-8859-1\n""";
"""Content-Transfer-Encoding: 8bit\n""";
"";
"#: src/actions/bridger.cxx:48 src/actions/bridger.cxx:232";
"#: src/pingu_enums.cxx:40";
"msgid ""Bridger""";
"msgstr ""Bridger""";
"";
"#: src/config.cxx:73";
"msgid ""Couldn't open: """;
"msgstr ""Datei oder Verzeichnis konnte nicht ge~f6ffnet werden: """;
"";
"#: src/config.cxx:172";
"msgid ""Unexpected char: '""";
"msgstr ""Unerwartetes Zeichen: '""";
"";
"#: src/config.cxx:206";
"msgid ""Unexpected char '""";
"msgstr ""Unerwartetes Zeichen: '""";
"";
"#: src/credits.cxx:48";
"msgid ""-Idea""";
"msgstr ""-Idee""";
"";
"#: src/credits.cxx:52";
"msgid ""-Maintaining""";
"msgstr ""-Verwaltung""";
"";
"#: src/credits.cxx:56";
"msgid ""-Programming""";
"msgstr ""-Programmierung""";
"";
"#: src/credits.cxx:62";
"msgid ""-Porting (Win32)""";
"msgstr ""-Portierung (Win32)""";
"";
"#: src/credits.cxx:70";
"msgid ""-Gfx""";
"msgstr ""-Grafiken""";
"";
"#: src/credits.cxx:82";
"msgid ""-Music""";
"msgstr ""-Musik""";
"";
"#: src/credits.cxx:88";
"msgid ""-Level Design""";
"msgstr ""-Level Design""";
"";
"#: src/credits.cxx:93";
"msgid ""-Story""";
"msgstr ""-Geschichte""";
"";
"#: src/credits.cxx:97";
"msgid ""-Translation""";
"msgstr ""-~dcbersetzung""";
"";
"#: src/credits.cxx:112";
"msgid ""-Special""";
"msgstr ""-Besonderen""";
"";
"#: src/credits.cxx:113";
"msgid ""-Thanks to""";
"msgstr ""-Dank an""";
"";
"#: src/credits.cxx:154";
"msgid ""_And a very Special Thanks""";
"msgstr ""_Und einen besonderen Dank""";
"";
"#: src/credits.cxx:155";
"msgid ""_to all the people who""";
"msgstr ""_an alle Leute die""";
"";
"#: src/credits.cxx:156";
"msgid ""_contribute to""";
"msgstr ""_an Freier Software""";
"";
"#: src/credits.cxx:157";
"msgid ""_Free Software!""";
"msgstr ""_mitarbeiten!""";
"";
"#: src/credits.cxx:163";
"msgid ""_Thank you for""";
"msgstr ""_Dankesch~f6n f~fcrs""";
"";
"#: src/credits.cxx:164";
"msgid ""_playing!""";
"msgstr ""_spielen!""";
"";
"#: src/editor/editor_event.cxx:588";
"msgid ""Enter filename to save as:""";
"msgstr ""Datei speichern als:  """;
"";
"#: src/editor/editor_help_screen.cxx:43";
"msgid ""Editor Helpscreen (hide with F1)""";
"msgstr ""Editor Hilfe (ausblenden mit F1)""";
"";
"#: src/editor/editor_help_screen.cxx:51";
"msgid ""F1 - show/hide this help screen""";
"msgstr ""F1 - Hilfe anzeigen/verstecken""";
"";
"#: src/editor/editor_help_screen.cxx:52";
"msgid ""F2 - launch level building tutorial""";
"msgstr ""F2 - Starte Levelbau Tutorial""";
"";
"#: src/editor/editor_help_screen.cxx:53";
"msgid ""F3 - toggle background color""";
"msgstr ""F3 - Hintergrundfarbe aendern""";
"";
"#: src/editor/editor_help_screen.cxx:54";
"msgid ""F4 - play/test the level""";
"msgstr ""F4 - Level starten/testen""";
"";
"#: src/editor/editor_help_screen.cxx:55";
"msgid ""F5 - load a level""";
"msgstr ""Level Laden (F5)""";
"";
"#: src/editor/editor_help_screen.cxx:56";
"msgid ""F6 - save this level""";
"msgstr ""Level Speichern (F6)""";
"";
"#: src/editor/editor_help_screen.cxx:57";
"msgid ""F7 - [unset]""";
"msgstr ""F7 - [nicht belegt]""";
"";
"#: src/editor/editor_help_screen.cxx:58";
"msgid ""F8 - quick save/backup save?!""";
"msgstr ""F8 - Schnellspeichern/Backup""";
"";
"#: src/editor/editor_help_screen.cxx:59";
"msgid ""F9 - change level width and height""";
"msgstr ""F9 - Level H~f6he und Breite ~e4ndern""";
"";
"#: src/editor/editor_help_screen.cxx:60";
"msgid ""F10 - [unset]""";
"msgstr ""F10 - [nicht belegt]""";
"";
"#: src/editor/editor_help_screen.cxx:61";
"msgid ""F11 - toggle fps counter""";
"msgstr ""F11 - fps Z~e4hler an/aus""";
"";
"#: src/editor/editor_help_screen.cxx:62";
"msgid ""F12 - make screenshot""";
"msgstr ""F12 - Screenshot erstellen""";
"";
"#: src/editor/editor_help_screen.cxx:66";
"msgid ""Home - increase object size""";
"msgstr ""Einfg - Objekt vergr~f6~dfern""";
"";
"#: src/editor/editor_help_screen.cxx:67";
"msgid ""End  - decrease object size""";
"msgstr ""Ende - Objekt verkleinern""";
"";
"#: src/editor/editor_help_screen.cxx:68";
"msgid ""Cursor Keys - Move object""";
"msgstr ""Cursor Tasten - Objekt bewegen""";
"";
"#: src/editor/editor_help_screen.cxx:69";
"msgid ""Shift 'Cursor Keys' - Move objects fast """;
"msgstr ""Shift Cursor Tasten - Objekt schneller bewegen""";
"";
"#: src/editor/editor_help_screen.cxx:70";
"msgid ""PageUp   - level object up""";
"msgstr ""Bild rauf - Objekt nach oben""";
"";
"#: src/editor/editor_help_screen.cxx:71";
"msgid ""PageDown - level object down""";
"msgstr ""Bild runter - Objekt nach unten""";
"";
"#: src/editor/editor_help_screen.cxx:72";
"msgid ""Shift PageUp   - increase objects z-pos by 50""";
"msgstr ""Shift Bild rauf - Objekt nach oben""";
"";
"#: src/editor/editor_help_screen.cxx:73";
"msgid ""Shift PageDown - decrease objects z-pos by 50""";
"msgstr ""Shift Bild runter - Objekt nach unten""";
"";
"#: src/editor/editor_help_screen.cxx:74";
"msgid ""Enter - Set default zoom (1:1)""";
"msgstr ""Eingabe - Setze Standard Zoom (1:1)""";
"";
"#: src/editor/editor_help_screen.cxx:75";
"msgid ""d - duplicate object""";
"msgstr ""d - Objekt kopieren""";
"";
"#: src/editor/editor_help_screen.cxx:76";
"msgid ""a - mark all objects""";
"msgstr ""a - Alle Objekte markieren""";
"";
"#: src/editor/editor_help_screen.cxx:77";
"msgid ""shift leftmouseclick - add object to selection""";
"msgstr ""Shift + linke Maustaste - Objekt zur Auswahl tun""";
"";
"#: src/editor/editor_help_screen.cxx:78";
"msgid ""leftmouseclick - select object""";
"msgstr ""linke Maustaste - Objekt ausw~e4hlen""";
"";
"#: src/editor/editor_help_screen.cxx:79";
"msgid ""Insert - insert new object""";
"msgstr ""Einf~fcgen - neues Objekt einf~fcgen""";
"";
"#: src/editor/editor_help_screen.cxx:80";
"msgid ""Remove - remove selected object""";
"msgstr ""Entfernen - entferne ausgew~e4hltes Objekt""";
"";
"#: src/editor/editor_help_screen.cxx:81";
"msgid ""g - ungroup/group current selection""";
"msgstr ""g - Auswahl gruppieren / Gruppierung aufheben""";
"";
"#: src/editor/editor_help_screen.cxx:82";
"msgid ""Ctrl PageUp   - increase objects z-pos by 1""";
"msgstr ""Strg Bild rauf - z-pos des Objekts um 1 erh~f6hen""";
"";
"#: src/editor/editor_help_screen.cxx:83";
"msgid ""Ctrl PageDown - decrease objects z-pos by 1""";
"msgstr ""Strg Bild runter - z-pos des Objekts um 1 senken""";
"";
"#: src/editor/editor_help_screen.cxx:89";
"msgid ""Naming Convention: <LEVELNAME><NUMBER>-<CREATOR>.plf""";
"msgstr ""Dateinamensvorgabe: <LEVELNAME><NUMMER>-<AUTOR>.pfl""";
"";
"#: src/editor/editor_help_screen.cxx:91";
"msgid """"";
"""When you have created a level and want to have it in the next Pingus """;
"""release,\n""";
"""please mail it to pingus-devel@nongnu.org.""";
"msgstr """"";
"""Falls Du einen Level erstellt hast und ihn gerne im n~e4chsten Pingus\n""";
"""Release h~e4ttest, schicke ihn an pingus-devel@nongnu.org.""";
"";
"#: src/editor/object_selector.cxx:106";
"msgid ""1 - guillotine""";
"msgstr ""1 - Guillotine""";
"";
"#: src/editor/object_selector.cxx:107";
"msgid ""2 - hammer""";
"msgstr ""2 - Hammer""";
"";
"#: src/editor/object_selector.cxx:108";
"msgid ""3 - spike""";
"msgstr ""3 - Stacheln""";
"";
"#: src/editor/object_selector.cxx:109";
"msgid ""4 - laser_exit""";
"msgstr ""4 - Laser Ausgang""";
"";
"#: src/editor/object_selector.cxx:110";
"msgid ""5 - fake_exit""";
"msgstr ""5 - T~e4usch Ausgang""";
"";
"#: src/editor/object_selector.cxx:111";
"msgid ""6 - smasher""";
"msgstr ""6 - Stampfer""";
"";
"#: src/editor/object_selector.cxx:112";
"msgid ""7 - bumper""";
"msgstr ""7 - Stosser""";
"";
"#: src/editor/object_selector.cxx:186";
"msgid ""Select a WorldObj""";
"msgstr ""W~e4hle ein WeltObjekt""";
"";
"#: src/editor/object_selector.cxx:187";
"msgid ""1 - teleporter""";
"msgstr ""1 - Teleporter""";
"";
"#: src/editor/object_selector.cxx:188";
"msgid ""2 - switch and door""";
"msgstr ""2 - Schalter und T~fcr""";
"";
"#: src/editor/object_selector.cxx:189";
"msgid ""3 - ConveyorBelt""";
"msgstr ""3 - F~f6rderband""";
"";
"#: src/editor/object_selector.cxx:190";
"msgid ""4 - IceBlock""";
"msgstr ""4 - Eisblock""";
"";
"#: src/editor/object_selector.cxx:191";
"msgid ""5 - InfoBox""";
"msgstr ""5 - InfoBox""";
"";
"#: src/editor/object_selector.cxx:232";
"msgid ""Select a weather""";
"msgstr ""W~e4hle ein Wetter""";
"";
"#: src/editor/object_selector.cxx:233";
"msgid ""1 - snow""";
"msgstr ""1 - Schnee""";
"";
"#: src/editor/object_selector.cxx:234";
"msgid ""2 - rain""";
"msgstr ""2 - Regen""";
"";
"#: src/editor/object_selector.cxx:265";
"msgid ""Select an entrance""";
"msgstr ""W~e4hle einen Eingang""";
"";
"#: src/editor/object_selector.cxx:266";
"msgid ""1 - generic""";
"msgstr ""1 - allgemein""";
"";
"#: src/editor/object_selector.cxx:267";
"msgid ""2 - woodthing""";
"msgstr ""2 - h~f6lzern""";
"";
"#: src/editor/object_selector.cxx:268";
"msgid ""3 - cloud""";
"msgstr ""3 - Wolke""";
"";
"#: src/editor/object_selector.cxx:269";
"msgid ""h - entrance surface (hotspot)""";
"msgstr ""h - Eingangs Grafik (hotspot)""";
"";
"#: src/editor/object_selector.cxx:343";
"msgid ""What object type do you want?""";
"msgstr ""Was f~fcr ein Objekt willst du?""";
"";
"#: src/editor/object_selector.cxx:344 src/editor/object_selector.cxx:400";
"msgid ""h - Hotspot""";
"msgstr ""h - Grafikelement (hotspot)""";
"";
"#: src/editor/object_selector.cxx:345";
"msgid ""g - Groundpiece (ground) [not implemented]""";
"msgstr ""g - Bodenst~fcck (ground) [nicht implementiert]""";
"";
"#: src/editor/object_selector.cxx:394 src/editor/object_selector.cxx:562";
"msgid ""Which object do you want?""";
"msgstr ""Welches Objekt willst du?""";
"";
"#: src/editor/object_selector.cxx:395";
"msgid ""g - Groundpiece (ground)""";
"msgstr ""g - Bodenst~fcck (ground)""";
"";
"#: src/editor/object_selector.cxx:396";
"msgid ""s - Groundpiece (solid)""";
"msgstr ""s - Bodenelement (Stahl)""";
"";
"#: src/editor/object_selector.cxx:397";
"msgid ""b - Groundpiece (bridge)""";
"msgstr ""b - Bodenelement (Bruecke)""";
"";
"#: src/editor/object_selector.cxx:398";
"msgid ""n - Groundpiece (transparent)""";
"msgstr ""n - Bodenelement (transparent)""";
"";
"#: src/editor/object_selector.cxx:399";
"msgid ""r - Groundpiece (remove)""";
"msgstr ""r - Bodenelement (entfernen)""";
"";
"#: src/editor/object_selector.cxx:401";
"msgid ""e - Entrance""";
"msgstr ""e - Eingang""";
"";
"#: src/editor/object_selector.cxx:402";
"msgid ""x - Exit""";
"msgstr ""x - Ausgang""";
"";
"#: src/editor/object_selector.cxx:403";
"msgid ""l - Liquid""";
"msgstr ""l - Fl~fcssigkeit""";
"";
"#: src/editor/object_selector.cxx:404";
"msgid ""w - Weather""";
"msgstr ""w - Wetter""";
"";
"#: src/editor/object_selector.cxx:405";
"msgid ""t - Traps""";
"msgstr ""t - Falle""";
"";
"#: src/editor/object_selector.cxx:406";
"msgid ""o - WorldObject""";
"msgstr ""o - WeltObjekt""";
"";
"#: src/editor/object_selector.cxx:407";
"msgid ""z - Background""";
"msgstr ""z - Hintergrund""";
"";
"#: src/editor/object_selector.cxx:408";
"msgid ""p - Prefab (ObjectGroup)""";
"msgstr ""p - Prefab (Objekt Gruppe)""";
"";
"#: src/editor/object_selector.cxx:409";
"msgid ""f - something from file (~7e/.pingus/images/)""";
"msgstr ""f - etwas aus einer Datei (~7e/.pingus/images/)""";
"";
"#: src/editor/object_selector.cxx:498";
"msgid ""Which prefab do you want?""";
"msgstr ""Welche Prefab willst du?""";
"";
"#: src/editor/object_selector.cxx:563";
"msgid ""1 - Surface Background""";
"msgstr ""1 - Bild Hintergrund""";
"";
"#: src/editor/object_selector.cxx:564";
"msgid ""2 - Solid Color Background""";
"msgstr ""2 - Farb Hintergrund""";
"";
"#: src/editor/object_selector.cxx:565";
"msgid ""3 - Starfield Background""";
"msgstr ""3 - Sternen Hintergrund""";
"";
"#: src/editor/object_selector.cxx:566";
"msgid ""4 - Thunderstorm Background""";
"msgstr ""4 - Gewitter Hintergrund""";
"";
"#: src/editor/panel_icons.cxx:33";
"msgid ""Load a level (F5)""";
"msgstr ""Level laden (F5)""";
"";
"#: src/editor/panel_icons.cxx:46";
"msgid ""Exit the editor (Escape)""";
"msgstr ""Editor Beenden (Esc)""";
"";
"#: src/editor/panel_icons.cxx:58";
"msgid ""Save this level (F6)""";
"msgstr ""Level Speichern (F6)""";
"";
"#: src/editor/panel_icons.cxx:70";
"msgid ""Delete marked objects (delete)""";
"msgstr ""Markierte Objekte L~f6schen (Entfernen)""";
"";
"#: src/editor/panel_icons.cxx:82";
"msgid ""Duplicate current object (d)""";
"msgstr ""Aktuelles Object kopieren (d)""";
"";
"#: src/editor/panel_icons.cxx:94";
"msgid ""Edit Level Properties""";
"msgstr ""Leveleigenschaften ~e4ndern""";
"";
"#: src/editor/panel_icons.cxx:106";
"msgid ""Edit Object Properties""";
"msgstr ""Objekteigenschaften ~e4ndern""";
"";
"#: src/editor/panel_icons.cxx:118";
"msgid ""Start the level and test it (F4)""";
"msgstr ""Level starten und testen (F4)""";
"";
"#: src/editor/panel_icons.cxx:130";
"msgid ""Create a new level from scratch""";
"msgstr ""Neuen Level erstellen""";
"";
"#: src/editor/panel_icons.cxx:142";
"msgid ""Insert an object (Insert)""";
"msgstr ""Objekt einfuegen (Einfg)""";
"";
"#: src/editor/panel_icons.cxx:154";
"msgid ""Zoom into a region""";
"msgstr ""Einen Bereich vergr~f6ssern""";
"";
"#: src/editor/panel_icons.cxx:166";
"msgid ""Zoom in""";
"msgstr ""Vergroessern""";
"";
"#: src/editor/panel_icons.cxx:179";
"msgid ""Zoom out""";
"msgstr ""Verkleinern""";
"";
"#: src/editor/panel_icons.cxx:192";
"msgid ""Setup Number of Actions""";
"msgstr ""Stelle die Anzahl der F~e4higkeiten ein""";
"";
"#: src/editor/panel_icons.cxx:204";
"msgid ""Display Help Screen (F1)""";
"msgstr ""Hilfe Anzeigen (F1)""";
"";
"#: src/exit_menu.cxx:48";
"msgid ""Yes""";
"msgstr ""Ja""";
"";
"#: src/exit_menu.cxx:81";
"msgid ""No""";
"msgstr ""Nein""";
"";
"#: src/exit_menu.cxx:114";
"msgid ""Exit Pingus?""";
"msgstr ""Pingus beenden?""";
"";
"#: src/fps_counter.cxx:48";
"msgid ""unknown""";
"msgstr ""unbekannt""";
"";
"#: src/game_time.cxx:70";
"msgid ""unlimited""";
"msgstr ""unbegrenzt""";
"";
"#: src/level_desc.cxx:74";
"msgid ""Designed by """;
"msgstr ""Erstellt von """;
"";
"#: src/level_desc.cxx:79";
"#, c-format";
"msgid ""Pingus to Save: %d""";
"msgstr ""Zu rettende Pingus: %d""";
"";
"#: src/level_desc.cxx:81";
"#, c-format";
"msgid ""Number of Pingus: %d""";
"msgstr ""Anzahl an Pingus: %d""";
"";
"#: src/level_desc.cxx:86";
"msgid ""Loading...""";
"msgstr ""Ladevorgang l~e4uft...""";
"";
"#: src/level_desc.cxx:89";
"msgid ""Loading finished. Press a mouse button to start the level""";
"msgstr """"";
"""Ladevorgang abgeschlossen. Dr~fccke eine Maus Taste um den Level zu starten""";
"";
"#: src/level_result.cxx:61";
"msgid ""Results:""";
"msgstr ""Ergebnisse:""";
"";
"#: src/level_result.cxx:67";
"#, c-format";
"msgid ""Pingus saved:   %3d/%3d""";
"msgstr ""Gerettete Pingus: %3d/%3d""";
"";
"#: src/level_result.cxx:72";
"#, c-format";
"msgid ""Pingus died:  %3d/%3d""";
"msgstr ""Tote Pingus: %3d/%3d""";
"";
"#: src/level_result.cxx:88";
"msgid ""Press button to continue...""";
"msgstr ""Knopf dr~fccken um fortzufahren""";
"";
"#: src/level_result.cxx:102";
"msgid """"";
"""As many Pingus escaped as entered the level. That's going to be hard to """;
"""beat.... unless this game becomes pornographic.""";
"msgstr """"";
"""Es wurden alle Pingu dieses Levels gerettet. Das wird hart zu schlagen """;
"""sein... es sei denn dieses Spiel wird pornographisch.""";
"";
"#: src/level_result.cxx:104";
"msgid ""Very impressive indeed.""";
"msgstr ""In der Tat sehr eindrucksvoll.""";
"";
"#: src/level_result.cxx:106";
"msgid ""Good work. Still room for improvement though.""";
"msgstr ""Gute Arbeit. Aber ~dcbung macht den Meiser!""";
"";
"#: src/level_result.cxx:108";
"msgid ""Not too shabby, not too shabby at all.""";
"msgstr ""Nicht schlecht, nicht schlecht!""";
"";
"#: src/level_result.cxx:110";
"msgid """"";
"""That was OK, but Pingu life insurance premiums have just gotten more """;
"""expensive.""";
"msgstr """"";
"""Das war ok, aber die Lebensversicherungspr~e4mien f~fcr Pingus sind gerade """;
"""gestiegen.""";
"";
"#: src/level_result.cxx:112";
"msgid ""Maybe this level calls for a different strategy.""";
"msgstr ""M~f6glicherweise verlangt dieser Level eine andere Strategie.""";
"";
"#: src/level_result.cxx:114";
"msgid ""Exactly half. Are you saving only the female ones?""";
"msgstr ""Genau die H~e4lfte! Rettest du nur die Weibchen?""";
"";
"#: src/level_result.cxx:116";
"msgid ""If I were a Pingu, I never would have left that entrance.""";
"msgstr ""Wenn ich ein Pingu w~e4re, h~e4tte ich den Eingang nie verlassen.""";
"";
"#: src/level_result.cxx:118";
"msgid ""Maybe you would feel more at home playing Quake.""";
"msgstr ""M~f6glicherweise w~e4re es besser Quake zu spielen?""";
"";
"#: src/level_result.cxx:120";
"msgid """"";
"""Maybe this level calls for a different strategy. Like attempting to save """;
"""them, for example.""";
"msgstr """"";
"""Es kann sein, dass wir etwas anderes versuchen sollten.  Vielleicht k~f6nnten """;
"""wir ja die Pingus retten?""";
"";
"#: src/level_result.cxx:122";
"msgid ""Ever considered a career as a Pingu exterminator?""";
"msgstr ""Hast du mal ~fcber eine Karriere als Pingu Zerst~f6rer nachgedacht?""";
"";
"#: src/level_result.cxx:124";
"msgid ""You missed one! What's your excuse!?""";
"msgstr ""Du hast einen vergessen! Was ist deine Entschuldigung?""";
"";
"#: src/level_result.cxx:126";
"msgid ""Please reassure me that you hit the Armageddon button.""";
"msgstr ""Best~e4tige mir bitte, dass das die Armageddon Taste war.""";
"";
"#: src/level_result.cxx:128";
"msgid ""You've got a negative save/total value, something is buggy.""";
"msgstr ""Ein negativer Wert? Hier liegt ein Fehler vor.""";
"";
"#: src/menu_button.cxx:181";
"msgid ""..:: The people who brought this game to you ::..""";
"msgstr ""..:: Die Leute, die fuer dieses Spiel verantwortlich sind... ::..""";
"";
"#: src/menu_button.cxx:184";
"msgid ""Credits""";
"msgstr ""Mitwirkende""";
"";
"#: src/menu_button.cxx:216";
"msgid ""..:: Takes you to the options menu ::..""";
"msgstr ""..:: Einstellungen, Cheats und Debugging stuff ::..""";
"";
"#: src/menu_button.cxx:219";
"msgid ""Options""";
"msgstr ""Einstellungen""";
"";
"#: src/menu_button.cxx:252";
"msgid ""..:: Bye, bye ::..""";
"msgstr ""..:: Auf Wiedersehen ::..""";
"";
"#: src/menu_button.cxx:255";
"msgid ""Exit""";
"msgstr ""Beenden""";
"";
"#: src/menu_button.cxx:306";
"msgid ""..:: Launch the level editor ::..""";
"msgstr ""..:: Erstelle deinen eigenen Level ::..""";
"";
"#: src/menu_button.cxx:309";
"msgid ""Create a""";
"msgstr ""Bau einen""";
"";
"#: src/menu_button.cxx:310";
"msgid ""Level""";
"msgstr ""Level""";
"";
"#: src/menu_button.cxx:344";
"msgid ""..:: Start the game ::..""";
"msgstr ""..:: das Spiel starten ::..""";
"";
"#: src/menu_button.cxx:345";
"msgid ""Start""";
"msgstr ""Start""";
"";
"#: src/menu_button.cxx:375";
"msgid ""..:: Start a contrib level ::..""";
"msgstr ""..:: Contrib level Spielen ::..""";
"";
"#: src/menu_button.cxx:377";
"msgid ""Contrib""";
"msgstr ""Levels""";
"";
"#: src/menu_button.cxx:399";
"msgid ""..:: Multiplayer Modes... experimental stuff ::..""";
"msgstr ""..:: Mehrspieler Modus ::.. Experimentelles Zeug ::..""";
"";
"#: src/menu_button.cxx:401";
"msgid ""Multi""";
"msgstr ""Multi""";
"";
"#: src/pingu_enums.cxx:35";
"msgid ""Angel""";
"msgstr ""Angel""";
"";
"#: src/pingu_enums.cxx:36";
"msgid ""Basher""";
"msgstr ""Basher""";
"";
"#: src/pingu_enums.cxx:37";
"msgid ""Blocker""";
"msgstr ""Blocker""";
"";
"#: src/pingu_enums.cxx:38";
"msgid ""Boarder""";
"msgstr ""Boarder""";
"";
"#: src/pingu_enums.cxx:39";
"msgid ""Bomber""";
"msgstr ""Bomber""";
"";
"#: src/pingu_enums.cxx:41";
"msgid ""Climber""";
"msgstr ""Climber""";
"";
"#: src/pingu_enums.cxx:42";
"msgid ""Digger""";
"msgstr ""Digger""";
"";
"#: src/pingu_enums.cxx:43";
"msgid ""Drown""";
"msgstr ""Drown""";
"";
"#: src/pingu_enums.cxx:44";
"msgid ""Exiter""";
"msgstr ""Exiter""";
"";
"#: src/pingu_enums.cxx:45";
"msgid ""Faller""";
"msgstr ""Faller""";
"";
"#: src/pingu_enums.cxx:46";
"msgid ""Floater""";
"msgstr ""Floater""";
"";
"#: src/pingu_enums.cxx:47";
"msgid ""Jumper""";
"msgstr ""Jumper""";
"";
"#: src/pingu_enums.cxx:48";
"msgid ""Laserkill""";
"msgstr ""Laserkill""";
"";
"#: src/pingu_enums.cxx:49";
"msgid ""Miner""";
"msgstr ""Miner""";
"";
"#: src/pingu_enums.cxx:50";
"msgid ""Rocketlauncher""";
"msgstr ""Rocketlauncher""";
"";
"#: src/pingu_enums.cxx:51";
"msgid ""Slider""";
"msgstr ""Slider""";
"";
"#: src/pingu_enums.cxx:52";
"msgid ""Smashed""";
"msgstr ""Smashed""";
"";
"#: src/pingu_enums.cxx:53";
"msgid ""Splashed""";
"msgstr ""Splashed""";
"";
"#: src/pingu_enums.cxx:54";
"msgid ""Superman""";
"msgstr ""Superman""";
"";
"#: src/pingu_enums.cxx:55";
"msgid ""Teleported""";
"msgstr ""Teleported""";
"";
"#: src/pingu_enums.cxx:56";
"msgid ""Waiter""";
"msgstr ""Waiter""";
"";
"#: src/pingu_enums.cxx:57";
"msgid ""Walker""";
"msgstr ""Walker""";
"";
"#: src/pingus_counter.cxx:52";
"#, c-format";
"msgid ""Released:%3d/%-3d   Out:%3d   Saved:%3d/%-3d""";
"msgstr ""Rein: %3d/%-3d  Raus: %3d Gerettet: %3d/%-3d""";
"";
"#: src/pingus_main.cxx:90";
"msgid ""| segfault_handler: catched a SIGSEGV.""";
"msgstr ""| segfault_handler: SIGSEGV abgefangen.""";
"";
"#: src/pingus_main.cxx:92";
"msgid ""| Woops, Pingus just crashed, congratulations you've found a bug.""";
"msgstr """"";
"""| Woops, Pingus ist abgest~fcrzt. Gratuliere, du hast einen Bug gefunden.""";
"";
"#: src/pingus_main.cxx:93";
"msgid """"";
"""| Please write a little bug report to <grumbel@gmail.com>, include informations""";
"msgstr """"";
"""| Bitte schreibe einen kleinen Report an <pingus-devel@nongnu.org, mit """;
"""Informationen,""";
"";
"#: src/pingus_main.cxx:94";
"msgid ""| where exacly the SIGSEGV occured and how to reproduce it.""";
"msgstr ""| wo genau der SIGSEGV auftrat und wie man ihn reproduziert.""";
"";
"#: src/pingus_main.cxx:95";
"msgid ""| Also try include a backtrace, you can get it like this:""";
"msgstr ""| Versuche auch einen backtrace zu erstellen, du bekommst ihn so:""";
"";
"#: src/pingus_main.cxx:101";
"msgid ""| If that doesn't work, try this:""";
"msgstr ""| Wenn das nicht geht, versuche dies:""";
"";
"#: src/pingus_main.cxx:105";
"msgid ""| [play until it crashes again]""";
"msgstr ""| [spiele bis es wieder crasht]""";
"";
"#: src/pingus_main.cxx:113";
"msgid ""| Warning: Pingus recieved a SIGINT, exiting now.""";
"msgstr ""| Warnung: Pingus erhielt einen SIGINT, beende jetzt.""";
"";
"#: src/pingus_main.cxx:301";
"msgid ""Warning: Larger resolution than 800x600 will result in visual problems""";
"msgstr """"";
"""Warnung: Aufl~f6sungen gr~f6sser als 800x600 k~f6nnen zu visuellen Problemen f~fchren""";
"";
"#: src/pingus_main.cxx:488";
"msgid ""Unknow char: """;
"msgstr ""Unbekannter Buchstabe: """;
"";
"#: src/pingus_main.cxx:489";
"msgid ""Usage: """;
"msgstr ""Benutzung: """;
"";
"#: src/pingus_main.cxx:489";
"msgid "" [OPTIONS]... [LEVELFILE]""";
"msgstr ""[OPTIONEN]... [LEVELDATEI]""";
"";
"#: src/pingus_main.cxx:492";
"msgid ""Options:""";
"msgstr ""Einstellungen""";
"";
"#: src/pingus_main.cxx:494";
"msgid ""Set the resolution for pingus (default: 800x600)""";
"msgstr ""Setze die Aufl~f6sung f~fcr Pingus (Standard: 800x600)""";
"";
"#: src/pingus_main.cxx:495";
"msgid ""Displays this help""";
"msgstr ""Hilfe Anzeigen""";
"";
"#: src/pingus_main.cxx:496";
"msgid ""Disable intro""";
"msgstr ""Intro abschalten""";
"";
"#: src/pingus_main.cxx:497";
"msgid ""Use OpenGL""";
"msgstr ""OpenGL benutzen""";
"";
"#: src/pingus_main.cxx:499";
"msgid ""Start in Window Mode""";
"msgstr ""Pingus im Fenster starten""";
"";
"#: src/pingus_main.cxx:500";
"msgid ""Start in Fullscreen""";
"msgstr ""Pingus im Vollbild starten""";
"";
"#: src/pingus_main.cxx:504";
"msgid ""FILE      """;
"msgstr ""Datei     """;
"";
"#: src/pingus_main.cxx:504";
"msgid ""Load a custom level from FILE""";
"msgstr ""Einen Level aus DATEI laden""";
"";
"#: src/pingus_main.cxx:505";
"msgid ""FILE        """;
"msgstr ""Datei      """;
"";
"#: src/pingus_main.cxx:505";
"msgid ""Load a custom worldmap from FILE""";
"msgstr ""Eine Weltkarte aus DATEI laden""";
"";
"#: src/pingus_main.cxx:506";
"msgid ""Print some more messages to stdout, can be set""";
"msgstr ""Gibt mehr Nachrichten auf stdout aus, kann""";
"";
"#: src/pingus_main.cxx:507";
"msgid ""multiple times to increase verbosity""";
"msgstr ""mehrmals gesetzt werden, um die Genauigkeit zu erh~f6hen""";
"";
"#: src/pingus_main.cxx:508";
"msgid ""Prints version number and exit""";
"msgstr ""Version ausgeben und beenden""";
"";
"#: src/pingus_main.cxx:509";
"msgid ""Launch the Level editor (experimental)""";
"msgstr ""Level Editor starten (Experimentell)""";
"";
"#: src/pingus_main.cxx:510";
"msgid ""Disable automatic scrolling""";
"msgstr ""Automatisches Scrollen abschalten""";
"";
"#: src/pingus_main.cxx:512";
"msgid ""Enable software cursor""";
"msgstr ""Aktiviere Software Cursor""";
"";
"#: src/pingus_main.cxx:515";
"msgid ""Don't read ~7e/.pingus/config""";
"msgstr ""~7e/.pingus/config nicht einlesen""";
"";
"#: src/pingus_main.cxx:516";
"msgid ""FILE       """;
"msgstr ""Datei      """;
"";
"#: src/pingus_main.cxx:516";
"msgid ""Read config from FILE (default: ~7e/.pingus/config)""";
"msgstr ""Konfiguration aus DATEI lesen""";
"";
"#: src/pingus_main.cxx:517";
"msgid ""reduce CPU usage, might speed up the game on slower machines""";
"msgstr """"";
"""reduziere CPU Belastung, k~f6nnte das Spiel auf langsamen Rechnern """;
"""beschleunigen""";
"";
"#: src/pingus_main.cxx:518";
"msgid ""Uses the controller given in FILE""";
"msgstr ""Controller aus FILE benutzen""";
"";
"#: src/pingus_main.cxx:520";
"msgid ""Debugging and experimental stuff:""";
"msgstr ""Debug und Experimentelles Zeug""";
"";
"#: src/pingus_main.cxx:521";
"msgid ""Enables some features, only interesting programmers""";
"msgstr ""Aktiviere einige Funktionen, nur f~fcr Programmierer""";
"";
"#: src/pingus_main.cxx:522";
"msgid ""Enable the output of debugging infos, possible""";
"msgstr ""Aktiviere die Ausgabe von Debug Informationen, m~f6gliche""";
"";
"#: src/pingus_main.cxx:523";
"msgid ""OPTION's are tiles, gametime, actions, sound, resources, gui,""";
"msgstr ""Optionen sind tiles, gametime, actions, sound, resources, gui,""";
"";
"#: src/pingus_main.cxx:525";
"msgid ""Skip at least N frames, larger values speed the game up""";
"msgstr """"";
"""~dcberspringe mindestens N Bilder, gr~f6~dfere Werte erh~f6hen die Geschwindigkeit""";
"";
"#: src/pingus_main.cxx:526";
"msgid ""Skip at most N frames""";
"msgstr ""~dcberspringe maximal N Bilder""";
"";
"#: src/pingus_main.cxx:527";
"msgid ""Set both min and max frameskip to N""";
"msgstr ""Setze sowohl minimalen als auch maximalen Bildsprung auf N""";
"";
"#: src/pingus_main.cxx:528";
"msgid ""Set the game speed (0=fastest, >0=slower)""";
"msgstr ""Setze die Geschwindigkeit (0=schnellste, >0=langsamer)""";
"";
"#: src/pingus_main.cxx:529";
"msgid ""Prints the fps to stdout""";
"msgstr ""Schreibe die fps auf stdout""";
"";
"#: src/pingus_main.cxx:530";
"msgid ""Set the size of the map tiles (default: 32)""";
"msgstr ""Setze die Gr~f6~dfe der Kartenteile (Standard: 32)""";
"";
"#: src/pingus_main.cxx:531";
"msgid ""Disable some cpu intensive features""";
"msgstr ""Deaktivere einige CPU intensive Funktionen""";
"";
"#: src/pingus_main.cxx:532";
"msgid ""Reduces the CPU usage by issuing sleep()""";
"msgstr ""Reduziert die CPU Belastung durch Verwendung von sleep()""";
"";
"#: src/pingus_main.cxx:534";
"msgid ""Demo playing and recording:""";
"msgstr ""Demo aufzeichnung und wiedergabe:""";
"";
"#: src/pingus_main.cxx:535";
"msgid ""FILE     """;
"msgstr ""Datei    """;
"";
"#: src/pingus_main.cxx:535";
"msgid ""Plays a demo session from FILE""";
"msgstr ""Spielt eine Demo Sitzung aus FILE""";
"";
"#: src/pingus_main.cxx:537";
"msgid ""Record demos for each played level""";
"msgstr ""Nehme Demos f~fcr jeden gespielten Level auf""";
"";
"#: src/pingus_main.cxx:539";
"msgid ""Sound:""";
"msgstr ""Sound""";
"";
"#: src/pingus_main.cxx:540";
"msgid ""Disable sound""";
"msgstr ""Sound deaktivieren""";
"";
"#: src/pingus_main.cxx:541";
"msgid ""Disable music""";
"msgstr ""Musik deaktivieren""";
"";
"#: src/pingus_main.cxx:720";
"msgid ""clanVorbis support:           ok""";
"msgstr ""clanVorbis Unterst~fctzung:    ok""";
"";
"#: src/pingus_main.cxx:722";
"msgid ""clanVoribs support:  missing (.ogg music files will not be playable)""";
"msgstr """"";
"""clanVorbis Unterst~fctzung: fehlt (.ogg Musik Datein k~f6nnen nicht abgespielt """;
"""werden)""";
"";
"#: src/pingus_main.cxx:726";
"msgid ""clanMikMod support:           ok""";
"msgstr ""clanMikMod Unterst~fctzung:    ok""";
"";
"#: src/pingus_main.cxx:728";
"msgid ""clanMikMod support:  missing (music files will not be playable)""";
"msgstr """"";
"""clanMikMod Unters~fctzung: fehlt (Musikdateien k~f6nnen nicht abgespielt werden)""";
"";
"#: src/pingus_main.cxx:732";
"msgid ""getext support:               ok""";
"msgstr ""gettext Unterst~fctzung:       ok""";
"";
"#: src/pingus_main.cxx:733";
"msgid ""gettext language:        english""";
"msgstr ""gettext Sprache:        deutsch""";
"";
"#: src/pingus_main.cxx:739";
"msgid ""sound support:           enabled""";
"msgstr ""Sound Unterst~fctzung:         an""";
"";
"#: src/pingus_main.cxx:741";
"msgid ""sound support:          disabled""";
"msgstr ""Sound Unterst~fctzung:        aus""";
"";
"#: src/pingus_main.cxx:744";
"msgid ""music support:           enabled""";
"msgstr ""Musik Unterst~fctzung:         an""";
"";
"#: src/pingus_main.cxx:746";
"msgid ""music support:          disabled""";
"msgstr ""Musik Unterst~fctzung:        aus""";
"";
"#: src/pingus_main.cxx:748";
"msgid ""resolution set to:       """;
"msgstr ""Aufl~f6sung:              """;
"";
"#: src/pingus_main.cxx:749";
"msgid ""fullscreen:              """;
"msgstr ""Vollbild:           """;
"";
"#: src/pingus_main.cxx:750";
"msgid "" enabled""";
"msgstr ""aktiviert""";
"";
"#: src/pingus_main.cxx:750";
"msgid ""disabled""";
"msgstr ""deaktiviert""";
""
  ]%string "".
