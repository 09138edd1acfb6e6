(** GENERATED by tools/gen_language_table.py from /repo/src/language.cpp.
    [raw_languages]: the array [languages] without its NULL terminator,
    language.cpp:49-289, in source order: language, country, modifier, name,
    name_localized ([None] is a null pointer).
    [raw_aliases]: the table of resolve_language_alias, language.cpp:309-355. *)
From Coq Require Import List String.
Import ListNotations.
Local Open Scope string_scope.

Definition raw_languages
  : list (string * option string * option string * string * option string) := [
  ("aa", None, None, "Afar", (Some "ʿAfár af"));
  ("af", None, None, "Afrikaans", (Some "Afrikaans"));
  ("af", (Some "ZA"), None, "Afrikaans (South Africa)", None);
  ("am", None, None, "Amharic", (Some "ኣማርኛ"));
  ("ar", None, None, "Arabic", (Some "العربية"));
  ("ar", (Some "AR"), None, "Arabic (Argentina)", None);
  ("ar", (Some "OM"), None, "Arabic (Oman)", None);
  ("ar", (Some "SA"), None, "Arabic (Saudi Arabia)", None);
  ("ar", (Some "SY"), None, "Arabic (Syrian Arab Republic)", None);
  ("ar", (Some "TN"), None, "Arabic (Tunisia)", None);
  ("as", None, None, "Assamese", (Some "অসমীয়া"));
  ("ast", None, None, "Asturian", (Some "Asturianu"));
  ("ay", None, None, "Aymara", (Some "aymar aru"));
  ("az", None, None, "Azerbaijani", (Some "Azərbaycanca"));
  ("az", (Some "IR"), None, "Azerbaijani (Iran)", None);
  ("be", None, None, "Belarusian", (Some "Беларуская мова"));
  ("be", None, (Some "latin"), "Belarusian", (Some "Беларуская мова"));
  ("bg", None, None, "Bulgarian", (Some "български"));
  ("bg", (Some "BG"), None, "Bulgarian (Bulgaria)", None);
  ("bn", None, None, "Bengali", (Some "বাংলা"));
  ("bn", (Some "BD"), None, "Bengali (Bangladesh)", None);
  ("bn", (Some "IN"), None, "Bengali (India)", None);
  ("bo", None, None, "Tibetan", (Some "བོད་སྐད་"));
  ("br", None, None, "Breton", (Some "brezhoneg"));
  ("bs", None, None, "Bosnian", (Some "Bosanski"));
  ("bs", (Some "BA"), None, "Bosnian (Bosnia/Herzegovina)", None);
  ("bs", (Some "BS"), None, "Bosnian (Bahamas)", None);
  ("ca", (Some "ES"), (Some "valencia"), "Catalan (valencia)", None);
  ("ca", (Some "ES"), None, "Catalan (Spain)", None);
  ("ca", None, (Some "valencia"), "Catalan (valencia)", None);
  ("ca", None, None, "Catalan", None);
  ("cmn", None, None, "Mandarin", None);
  ("co", None, None, "Corsican", (Some "corsu"));
  ("cs", None, None, "Czech", (Some "Čeština"));
  ("cs", (Some "CZ"), None, "Czech (Czech Republic)", (Some "Čeština (Česká Republika)"));
  ("cy", None, None, "Welsh", (Some "Welsh"));
  ("cy", (Some "GB"), None, "Welsh (Great Britain)", (Some "Welsh (Great Britain)"));
  ("cz", None, None, "Unknown language", (Some "Unknown language"));
  ("da", None, None, "Danish", (Some "Dansk"));
  ("da", (Some "DK"), None, "Danish (Denmark)", (Some "Dansk (Danmark)"));
  ("de", None, None, "German", (Some "Deutsch"));
  ("de", (Some "AT"), None, "German (Austria)", (Some "Deutsch (Österreich)"));
  ("de", (Some "CH"), None, "German (Switzerland)", (Some "Deutsch (Schweiz)"));
  ("de", (Some "DE"), None, "German (Germany)", (Some "Deutsch (Deutschland)"));
  ("dk", None, None, "Unknown language", (Some "Unknown language"));
  ("dz", None, None, "Dzongkha", (Some "རྫོང་ཁ"));
  ("el", None, None, "Greek", (Some "ελληνικά"));
  ("el", (Some "GR"), None, "Greek (Greece)", None);
  ("en", None, None, "English", (Some "English"));
  ("en", (Some "AU"), None, "English (Australia)", (Some "English (Australia)"));
  ("en", (Some "CA"), None, "English (Canada)", (Some "English (Canada)"));
  ("en", (Some "GB"), None, "English (Great Britain)", (Some "English (Great Britain)"));
  ("en", (Some "US"), None, "English (United States)", (Some "English (United States)"));
  ("en", (Some "ZA"), None, "English (South Africa)", (Some "English (South Africa)"));
  ("en", None, (Some "boldquot"), "English", (Some "English"));
  ("en", None, (Some "quot"), "English", (Some "English"));
  ("en", (Some "US"), (Some "piglatin"), "English", (Some "English"));
  ("eo", None, None, "Esperanto", (Some "Esperanto"));
  ("es", None, None, "Spanish", (Some "Español"));
  ("es", (Some "AR"), None, "Spanish (Argentina)", None);
  ("es", (Some "CL"), None, "Spanish (Chile)", None);
  ("es", (Some "CO"), None, "Spanish (Colombia)", None);
  ("es", (Some "CR"), None, "Spanish (Costa Rica)", None);
  ("es", (Some "DO"), None, "Spanish (Dominican Republic)", None);
  ("es", (Some "EC"), None, "Spanish (Ecuador)", None);
  ("es", (Some "ES"), None, "Spanish (Spain)", None);
  ("es", (Some "GT"), None, "Spanish (Guatemala)", None);
  ("es", (Some "HN"), None, "Spanish (Honduras)", None);
  ("es", (Some "LA"), None, "Spanish (Laos)", None);
  ("es", (Some "MX"), None, "Spanish (Mexico)", None);
  ("es", (Some "NI"), None, "Spanish (Nicaragua)", None);
  ("es", (Some "PA"), None, "Spanish (Panama)", None);
  ("es", (Some "PE"), None, "Spanish (Peru)", None);
  ("es", (Some "PR"), None, "Spanish (Puerto Rico)", None);
  ("es", (Some "SV"), None, "Spanish (El Salvador)", None);
  ("es", (Some "UY"), None, "Spanish (Uruguay)", None);
  ("es", (Some "VE"), None, "Spanish (Venezuela)", None);
  ("et", None, None, "Estonian", (Some "eesti keel"));
  ("et", (Some "EE"), None, "Estonian (Estonia)", None);
  ("et", (Some "ET"), None, "Estonian (Ethiopia)", None);
  ("eu", None, None, "Basque", (Some "euskara"));
  ("eu", (Some "ES"), None, "Basque (Spain)", None);
  ("fa", None, None, "Persian", (Some "فارسى"));
  ("fa", (Some "AF"), None, "Persian (Afghanistan)", None);
  ("fa", (Some "IR"), None, "Persian (Iran)", None);
  ("fi", None, None, "Finnish", (Some "suomi"));
  ("fi", (Some "FI"), None, "Finnish (Finland)", None);
  ("fo", None, None, "Faroese", (Some "Føroyskt"));
  ("fo", (Some "FO"), None, "Faeroese (Faroe Islands)", None);
  ("fr", None, None, "French", (Some "Français"));
  ("fr", (Some "CA"), None, "French (Canada)", (Some "Français (Canada)"));
  ("fr", (Some "CH"), None, "French (Switzerland)", (Some "Français (Suisse)"));
  ("fr", (Some "FR"), None, "French (France)", (Some "Français (France)"));
  ("fr", (Some "LU"), None, "French (Luxembourg)", (Some "Français (Luxembourg)"));
  ("fy", None, None, "Frisian", (Some "Frysk"));
  ("ga", None, None, "Irish", (Some "Gaeilge"));
  ("gd", None, None, "Gaelic Scots", (Some "Gàidhlig"));
  ("gl", None, None, "Galician", (Some "Galego"));
  ("gl", (Some "ES"), None, "Galician (Spain)", None);
  ("gn", None, None, "Guarani", (Some "Avañe'ẽ"));
  ("gu", None, None, "Gujarati", (Some "ગુજરાતી"));
  ("gv", None, None, "Manx", (Some "Gaelg"));
  ("ha", None, None, "Hausa", (Some "حَوْسَ"));
  ("he", None, None, "Hebrew", (Some "עברית"));
  ("he", (Some "IL"), None, "Hebrew (Israel)", None);
  ("hi", None, None, "Hindi", (Some "हिन्दी"));
  ("hi", (Some "IN"), None, "Hindi (India)", None);
  ("hr", None, None, "Croatian", (Some "Hrvatski"));
  ("hr", (Some "HR"), None, "Croatian (Croatia)", None);
  ("hu", None, None, "Hungarian", (Some "magyar"));
  ("hu", (Some "HU"), None, "Hungarian (Hungary)", None);
  ("hy", None, None, "Armenian", (Some "Հայերեն"));
  ("ia", None, None, "Interlingua", (Some "Interlingua"));
  ("id", None, None, "Indonesian", (Some "Bahasa Indonesia"));
  ("id", (Some "ID"), None, "Indonesian (Indonesia)", None);
  ("is", None, None, "Icelandic", (Some "Íslenska"));
  ("is", (Some "IS"), None, "Icelandic (Iceland)", None);
  ("it", None, None, "Italian", (Some "Italiano"));
  ("it", (Some "CH"), None, "Italian (Switzerland)", None);
  ("it", (Some "IT"), None, "Italian (Italy)", None);
  ("iu", None, None, "Inuktitut", (Some "ᐃᓄᒃᑎᑐᑦ/inuktitut"));
  ("ja", None, None, "Japanese", (Some "日本語"));
  ("ja", (Some "JP"), None, "Japanese (Japan)", None);
  ("ka", None, None, "Georgian", (Some "ქართული"));
  ("kk", None, None, "Kazakh", (Some "Қазақша"));
  ("kl", None, None, "Kalaallisut", (Some "Kalaallisut"));
  ("km", None, None, "Khmer", (Some "ភាសាខ្មែរ"));
  ("km", (Some "KH"), None, "Khmer (Cambodia)", None);
  ("kn", None, None, "Kannada", (Some "ಕನ್ನಡ"));
  ("ko", None, None, "Korean", (Some "한국어"));
  ("ko", (Some "KR"), None, "Korean (Korea)", None);
  ("ku", None, None, "Kurdish", (Some "Kurdî"));
  ("kw", None, None, "Cornish", (Some "Kernowek"));
  ("ky", None, None, "Kirghiz", None);
  ("la", None, None, "Latin", (Some "Latina"));
  ("lo", None, None, "Lao", (Some "ລາວ"));
  ("lt", None, None, "Lithuanian", (Some "Lietuvių"));
  ("lt", (Some "LT"), None, "Lithuanian (Lithuania)", None);
  ("lv", None, None, "Latvian", (Some "Latviešu"));
  ("lv", (Some "LV"), None, "Latvian (Latvia)", None);
  ("jbo", None, None, "Lojban", (Some "La .lojban."));
  ("mg", None, None, "Malagasy", (Some "Malagasy"));
  ("mi", None, None, "Maori", (Some "Māori"));
  ("mk", None, None, "Macedonian", (Some "Македонски"));
  ("mk", (Some "MK"), None, "Macedonian (Macedonia)", None);
  ("ml", None, None, "Malayalam", (Some "മലയാളം"));
  ("mn", None, None, "Mongolian", (Some "Монгол"));
  ("mr", None, None, "Marathi", (Some "मराठी"));
  ("ms", None, None, "Malay", (Some "Bahasa Melayu"));
  ("ms", (Some "MY"), None, "Malay (Malaysia)", None);
  ("mt", None, None, "Maltese", (Some "Malti"));
  ("my", None, None, "Burmese", (Some "မြန်မာဘာသာ"));
  ("my", (Some "MM"), None, "Burmese (Myanmar)", None);
  ("nb", None, None, "Norwegian Bokmal", None);
  ("nb", (Some "NO"), None, "Norwegian Bokmål (Norway)", None);
  ("nds", None, None, "Low German", None);
  ("ne", None, None, "Nepali", None);
  ("nl", None, None, "Dutch", (Some "Nederlands"));
  ("nl", (Some "BE"), None, "Dutch (Belgium)", None);
  ("nl", (Some "NL"), None, "Dutch (Netherlands)", None);
  ("nn", None, None, "Norwegian Nynorsk", (Some "Norsk nynorsk"));
  ("nn", (Some "NO"), None, "Norwegian Nynorsk (Norway)", None);
  ("no", None, None, "Norwegian", (Some "Norsk bokmål"));
  ("no", (Some "NO"), None, "Norwegian (Norway)", None);
  ("no", (Some "NY"), None, "Norwegian (NY)", None);
  ("nr", None, None, "Ndebele, South", None);
  ("oc", None, None, "Occitan post 1500", (Some "Occitan"));
  ("om", None, None, "Oromo", (Some "Oromoo"));
  ("or", None, None, "Oriya", (Some "ଓଡ଼ିଆ"));
  ("pa", None, None, "Punjabi", (Some "ਪੰਜਾਬੀ"));
  ("pl", None, None, "Polish", (Some "Polski"));
  ("pl", (Some "PL"), None, "Polish (Poland)", None);
  ("ps", None, None, "Pashto", (Some "پښتو"));
  ("pt", None, None, "Portuguese", (Some "Português"));
  ("pt", (Some "BR"), None, "Portuguese (Brazil)", None);
  ("pt", (Some "PT"), None, "Portuguese (Portugal)", None);
  ("qu", None, None, "Quechua", (Some "Runa Simi"));
  ("rm", None, None, "Rhaeto-Romance", (Some "Rumantsch"));
  ("ro", None, None, "Romanian", (Some "Română"));
  ("ro", (Some "RO"), None, "Romanian (Romania)", None);
  ("ru", None, None, "Russian", (Some "Русский"));
  ("ru", (Some "RU"), None, "Russian (Russia", None);
  ("rw", None, None, "Kinyarwanda", (Some "Kinyarwanda"));
  ("sa", None, None, "Sanskrit", None);
  ("sd", None, None, "Sindhi", None);
  ("se", None, None, "Sami", (Some "Sámegiella"));
  ("se", (Some "NO"), None, "Sami (Norway)", None);
  ("si", None, None, "Sinhalese", None);
  ("sk", None, None, "Slovak", (Some "Slovenčina"));
  ("sk", (Some "SK"), None, "Slovak (Slovakia)", None);
  ("sl", None, None, "Slovenian", (Some "Slovenščina"));
  ("sl", (Some "SI"), None, "Slovenian (Slovenia)", None);
  ("sl", (Some "SL"), None, "Slovenian (Sierra Leone)", None);
  ("sm", None, None, "Samoan", None);
  ("so", None, None, "Somali", None);
  ("sp", None, None, "Unknown language", None);
  ("sq", None, None, "Albanian", (Some "Shqip"));
  ("sq", (Some "AL"), None, "Albanian (Albania)", None);
  ("sr", None, None, "Serbian", (Some "Српски / srpski"));
  ("sr", (Some "YU"), None, "Serbian (Yugoslavia)", None);
  ("sr", None, (Some "ije"), "Serbian", None);
  ("sr", None, (Some "latin"), "Serbian", None);
  ("sr", None, (Some "Latn"), "Serbian", None);
  ("ss", None, None, "Swati", None);
  ("st", None, None, "Sotho", None);
  ("sv", None, None, "Swedish", (Some "Svenska"));
  ("sv", (Some "SE"), None, "Swedish (Sweden)", None);
  ("sv", (Some "SV"), None, "Swedish (El Salvador)", None);
  ("sw", None, None, "Swahili", None);
  ("ta", None, None, "Tamil", None);
  ("te", None, None, "Telugu", None);
  ("tg", None, None, "Tajik", None);
  ("th", None, None, "Thai", (Some "ไทย"));
  ("th", (Some "TH"), None, "Thai (Thailand)", None);
  ("ti", None, None, "Tigrinya", None);
  ("tk", None, None, "Turkmen", None);
  ("tl", None, None, "Tagalog", None);
  ("to", None, None, "Tonga", None);
  ("tr", None, None, "Turkish", (Some "Türkçe"));
  ("tr", (Some "TR"), None, "Turkish (Turkey)", None);
  ("ts", None, None, "Tsonga", None);
  ("tt", None, None, "Tatar", None);
  ("ug", None, None, "Uighur", None);
  ("uk", None, None, "Ukrainian", (Some "Українська"));
  ("uk", (Some "UA"), None, "Ukrainian (Ukraine)", None);
  ("ur", None, None, "Urdu", None);
  ("ur", (Some "PK"), None, "Urdu (Pakistan)", None);
  ("uz", None, None, "Uzbek", None);
  ("uz", None, (Some "cyrillic"), "Uzbek", None);
  ("vi", None, None, "Vietnamese", (Some "Tiếng Việt"));
  ("vi", (Some "VN"), None, "Vietnamese (Vietnam)", None);
  ("wa", None, None, "Walloon", None);
  ("wo", None, None, "Wolof", None);
  ("xh", None, None, "Xhosa", None);
  ("yi", None, None, "Yiddish", (Some "ייִדיש"));
  ("yo", None, None, "Yoruba", None);
  ("zh", None, None, "Chinese", (Some "中文"));
  ("zh", (Some "CN"), None, "Chinese (simplified)", (Some "中文 (简体)"));
  ("zh", (Some "HK"), None, "Chinese (Hong Kong)", (Some "中文 (香港)"));
  ("zh", (Some "TW"), None, "Chinese (traditional)", (Some "中文 (繁體)"));
  ("zu", None, None, "Zulu", None)
].

Definition raw_aliases : list (string * string) := [
  ("bokmal", "nb_NO.ISO-8859-1");
  ("bokmål", "nb_NO.ISO-8859-1");
  ("catalan", "ca_ES.ISO-8859-1");
  ("croatian", "hr_HR.ISO-8859-2");
  ("czech", "cs_CZ.ISO-8859-2");
  ("danish", "da_DK.ISO-8859-1");
  ("dansk", "da_DK.ISO-8859-1");
  ("deutsch", "de_DE.ISO-8859-1");
  ("dutch", "nl_NL.ISO-8859-1");
  ("eesti", "et_EE.ISO-8859-1");
  ("estonian", "et_EE.ISO-8859-1");
  ("finnish", "fi_FI.ISO-8859-1");
  ("français", "fr_FR.ISO-8859-1");
  ("french", "fr_FR.ISO-8859-1");
  ("galego", "gl_ES.ISO-8859-1");
  ("galician", "gl_ES.ISO-8859-1");
  ("german", "de_DE.ISO-8859-1");
  ("greek", "el_GR.ISO-8859-7");
  ("hebrew", "he_IL.ISO-8859-8");
  ("hrvatski", "hr_HR.ISO-8859-2");
  ("hungarian", "hu_HU.ISO-8859-2");
  ("icelandic", "is_IS.ISO-8859-1");
  ("italian", "it_IT.ISO-8859-1");
  ("japanese", "ja_JP.eucJP");
  ("japanese.euc", "ja_JP.eucJP");
  ("ja_JP", "ja_JP.eucJP");
  ("ja_JP.ujis", "ja_JP.eucJP");
  ("japanese.sjis", "ja_JP.SJIS");
  ("korean", "ko_KR.eucKR");
  ("korean.euc", "ko_KR.eucKR");
  ("ko_KR", "ko_KR.eucKR");
  ("lithuanian", "lt_LT.ISO-8859-13");
  ("no_NO", "nb_NO.ISO-8859-1");
  ("no_NO.ISO-8859-1", "nb_NO.ISO-8859-1");
  ("norwegian", "nb_NO.ISO-8859-1");
  ("nynorsk", "nn_NO.ISO-8859-1");
  ("polish", "pl_PL.ISO-8859-2");
  ("portuguese", "pt_PT.ISO-8859-1");
  ("romanian", "ro_RO.ISO-8859-2");
  ("russian", "ru_RU.ISO-8859-5");
  ("slovak", "sk_SK.ISO-8859-2");
  ("slovene", "sl_SI.ISO-8859-2");
  ("slovenian", "sl_SI.ISO-8859-2");
  ("spanish", "es_ES.ISO-8859-1");
  ("swedish", "sv_SE.ISO-8859-1");
  ("thai", "th_TH.TIS-620");
  ("turkish", "tr_TR.ISO-8859-9")
].
