(** The model run on the project's own test data: the commands of /repo/test/test.sh, and
    po_parser_test on every catalogue of /repo/test. These are checks of the model (that it
    computes, and what it computes can be compared with a run of the real programs), not
    properties; but they hold for every converter, since none of these files needs one. *)
From Coq Require Import String.
From Verif.Model Require Import Base Log PluralForms Dictionary Language Stream IConv PoParser Manager Programs.
From Verif.Validation Require Import Corpus.
From Verif.Spec Require Import ParserSpec.
Local Open Scope list_scope.

(** /repo/test as the current directory *)
Fixpoint find_file (l : list (string * bytes)) (p : bytes) : option bytes :=
  match l with [] => None | (n, b) :: l' => if bytes_eqb p (bs n) then Some b else find_file l' p end.
Definition test_disk : os_state := {|
  os_dir := fun p => if bytes_eqb p (bs "po/") then Some [bs "de.po"; bs "de_AT.po"; bs "fr.po"] else None;
  os_file := find_file [("po//de.po", po_de); ("po//de_AT.po", po_de_AT); ("po//fr.po", po_fr);
                        ("po/de.po", po_de); ("po/de_AT.po", po_de_AT); ("po/fr.po", po_fr); ("broken.po", broken_po);
                        ("helloworld/de.po", hello_de); ("level/de.po", level_de); ("game/de.po", game_de)]%string |}.
Definition test_system : system := {| sy_os := test_disk; sy_strerror := fun _ => []; sy_what := fun _ => [] |}.
Definition build (I : iconv_impl) : config :=
  {| cf_pedantic := true; cf_strict := false; cf_ndebug := false; cf_fuel := 1200; cf_iconv := I |}.
Definition run I (args : list string) : outcome nat * streams :=
  tinygettext_test (build I) test_system (bs "./tinygettext_test" :: List.map bs args) Programs.start.
Definition check I (files : list string) : outcome nat * streams :=
  po_parser_test (build I) test_system (bs "./po_parser_test" :: List.map bs files) Programs.start.
Definition said (out err : list string) : outcome nat * streams :=
  (Ret 0, {| s_out := text out ""; s_err := text err "" |}).

Local Open Scope string_scope.
(** test.sh, line by line *)
Example test_sh_1 : forall I,
  run I ["translate"; "po/fr.po"; "invalid"] = said ["TRANSLATION: """"""ung~c3~bctig"""""""] [].
Proof. intros. vm_compute. reflexivity. Qed.
Example test_sh_2 : forall I,
  run I ["directory"; "po/"; "umlaut"; "Deutsch"] =
  said ["Directory:   'po/'"; "Message:     'umlaut'";
        "Language:    'de_DE' (name: 'German (Germany)', language: 'de', country: 'DE', modifier: '')";
        "Translation: '~c3~84~c3~96~c3~9c~c3~a4~c3~b6~c3~bc~c3~9f'"] [].
Proof. intros. vm_compute. reflexivity. Qed.
Example test_sh_3 : forall I,
  run I ["directory"; "po/"; "umlaut"; "deutsch"] = run I ["directory"; "po/"; "umlaut"; "Deutsch"].
Proof. intros. vm_compute. reflexivity. Qed.
Example test_sh_4 : forall I,
  run I ["directory"; "po/"; "umlaut"; "de"] =
  said ["Directory:   'po/'"; "Message:     'umlaut'";
        "Language:    'de' (name: 'German', language: 'de', country: '', modifier: '')";
        "Translation: '~c3~84~c3~96~c3~9c~c3~a4~c3~b6~c3~bc~c3~9f'"] [].
Proof. intros. vm_compute. reflexivity. Qed.

(** broken.po: every intended mistake of the file is found *)
Example broken : forall I,
  check I ["broken.po"] = said []
   ["broken.po:20: error: unexpected end of string: msgstr ""kurzes Hallo Welt";
    "broken.po:28: error: expected 'msgstr[N]': msgstr[10] ""Hallo Welt (plural)""";
    "broken.po:35: warning: keyword and string must be seperated by a single space: msgstr[0] Hallo Welt (singular) mit leerem Kontext""";
    "broken.po:35: error: string must start with '""': msgstr[0] Hallo Welt (singular) mit leerem Kontext""";
    "broken.po:42: warning: keyword and string must be seperated by a single space: msgstr[0]""Hallo Welt (singular) in der Console""";
    "broken.po:44: warning: msgstr[N] seen, but no Plural-Forms given: ";
    "broken.po:48: warning: keyword and string must be seperated by a single space: msgstr[0]~09""Hallo Welt (singular)""";
    "broken.po:50: warning: msgstr[N] seen, but no Plural-Forms given: ";
    "broken.po:58: warning: msgstr[N] seen, but no Plural-Forms given: "].
Proof. intros. vm_compute. reflexivity. Qed.

(** the other catalogues *)
Example silent_catalogues : forall I, check I ["po/de.po"; "po/de_AT.po"; "po/fr.po"] = said [] [].
Proof. intros. vm_compute. reflexivity. Qed.
Example helloworld : forall I, check I ["helloworld/de.po"] = said []
   ["helloworld/de.po:28: warning: msgstr[N] seen, but no Plural-Forms given: ";
    "helloworld/de.po:36: warning: msgstr[N] seen, but no Plural-Forms given: ";
    "helloworld/de.po:43: warning: msgstr[N] seen, but no Plural-Forms given: ";
    "helloworld/de.po:49: warning: msgstr[N] seen, but no Plural-Forms given: ";
    "helloworld/de.po:57: warning: msgstr[N] seen, but no Plural-Forms given: "].
Proof. intros. vm_compute. reflexivity. Qed.
Example level : forall I, check I ["level/de.po"] = said []
   ["level/de.po:15: warning: charset not specified for .po, fallback to utf-8: ";
    "level/de.po:374: warning: msgstr[N] seen, but no Plural-Forms given: ";
    "level/de.po:379: warning: msgstr[N] seen, but no Plural-Forms given: "].
Proof. intros. vm_compute. reflexivity. Qed.
(** game/de.po is in ISO-8859-1; where that is not on offer: *)
Definition nothing_on_offer : iconv_impl := {|
  ic_state := unit; ic_open := fun _ _ => inr (EINVAL, bs "Invalid argument");
  ic_conv := fun s _ _ => (s, []%list, None); ic_reset := fun s => s |}.
Example game : check nothing_on_offer ["game/de.po"] = said
   ["game/de.po: exception: IConv construction failed: conversion from 'ISO-8859-1' to 'UTF-8' not available"] [].
Proof. vm_compute. reflexivity. Qed.
(** the empty form of de_AT.po is none: *)
Example empty_form : forall I, run I ["directory"; "po/"; "I ate %d pizza."; "de_AT"] =
  said ["Directory:   'po/'"; "Message:     'I ate %d pizza.'";
        "Language:    'de_AT' (name: 'German (Austria)', language: 'de', country: 'AT', modifier: '')";
        "Translation: 'I ate %d pizza.'"]
       ["tinygettext: Couldn't translate: I ate %d pizza."; "tinygettext: Couldn't translate: I ate %d pizza."].
Proof. intros. vm_compute. reflexivity. Qed.
