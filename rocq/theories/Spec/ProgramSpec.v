(** What the command-line programs print, in terms of lines. *)
From Verif.Model Require Import Base Log PluralForms Dictionary IConv Language Stream PoParser Manager Programs.
From Verif.Spec Require Import DictSpec LangSpec ParserSpec PoSpec ShelfSpec SoundSpec DamageSpec RunSpec CharsetSpec.
Local Open Scope list_scope.

(** a text of these lines *)
Definition text_of (ls : list bytes) : bytes := List.concat (List.map (fun l => l ++ [c_lf]) ls).

(** the program ends with exit status [st], having printed [o] and, on standard error, [e] *)
Definition ends_with (x : outcome nat * streams) (st : nat) (o e : bytes) : Prop :=
  x = (Ret st, {| s_out := o; s_err := e |}).

(** log lines as written by a callback that puts [prefix] before each *)
Definition log_text (prefix : bytes) (evs : list event) : bytes :=
  List.concat (List.map (fun e => match e with EvLog s => prefix ++ lg_text s | _ => [] end) evs).

(** what is logged while a file made of these segments is read *)
Definition reading_log (cf : config) (fn : bytes) (sgs : list segment) (ms : list (option bytes)) : list event :=
  w_log (snd (segs_do fn (cf_pedantic cf) (cf_ndebug cf) false 1 sgs ms (RunSpec.start (cf_iconv cf) (new_dictionary utf8)))).

(** the file [b] consists of the segments [sgs], with the reports [ms] *)
Definition described (b : bytes) (sgs : list segment) (ms : list (option bytes)) : Prop :=
  complete b /\ segs_lines sgs = file_lines b ++ [[]] /\ segs_ok false sgs /\ segs_diagnosed false sgs ms.

(** the number that an argument begins with, as atoi(3) reads it: white space, a sign or none,
    digits (none: 0), and whatever does not go on as a number; it has to fit an int *)
Definition value (ds : bytes) : Z := fold_left (fun v c => (10 * v + Z.of_N (code c - 48))%Z) ds 0%Z.
Definition denotes (arg : bytes) (n : Z) : Prop :=
  exists space sign ds rest, arg = space ++ sign ++ ds ++ rest /\
    forallb isspace space = true /\ forallb isdigit ds = true /\
    match rest with c :: _ => isdigit c = false | [] => True end /\
    (sign = bs "-" /\ n = (- value ds)%Z \/ sign = bs "+" /\ n = value ds \/
     sign = [] /\ n = value ds /\
       (ds = [] -> match rest with c :: _ => isspace c = false /\ [c] <> bs "-" /\ [c] <> bs "+" | [] => True end)) /\
    (-2147483648 <= n <= 2147483647)%Z.

Definition about (l : language) : list bytes :=
  [bs "Env:       " ++ str l; bs "Name:      " ++ get_name l; bs "Language:  " ++ get_language l;
   bs "Country:   " ++ get_country l; bs "Modifier:  " ++ get_modifier l].

Definition triple (t : bytes) : bytes := let q := [c_dq; c_dq; c_dq] in q ++ t ++ q.

(** standard error after a lookup: one line if there is no translation *)
Definition remark (found : option bytes) (msg : bytes) : bytes :=
  match found with Some _ => [] | None => text_of [bs "tinygettext: Couldn't translate: " ++ msg] end.

(** ** what po_parser_test reports about one file: standard output and standard error *)
Inductive report (cf : config) (sy : system) (prog file : bytes) : bytes -> bytes -> Prop :=
| report_missing : os_file (sy_os sy) file = None ->
    report cf sy prog file [] (text_of [prog ++ bs ": cannot access " ++ file ++ bs ": " ++ sy_strerror sy file])
| report_read b sgs ms : os_file (sy_os sy) file = Some b -> described b sgs ms ->
    fst (segs_do file (cf_pedantic cf) (cf_ndebug cf) false 1 sgs ms (RunSpec.start (cf_iconv cf) (new_dictionary utf8))) = Ret tt ->
    report cf sy prog file [] (log_text [] (reading_log cf file sgs ms))
| report_failed b sgs ms w : os_file (sy_os sy) file = Some b -> described b sgs ms ->
    fst (segs_do file (cf_pedantic cf) (cf_ndebug cf) false 1 sgs ms (RunSpec.start (cf_iconv cf) (new_dictionary utf8))) = Exn (ExRuntime w) ->
    report cf sy prog file (text_of [file ++ bs ": exception: " ++ w]) (log_text [] (reading_log cf file sgs ms)).

(** the first lines that the mode "directory" prints *)
Definition heading (dir msg : bytes) (l : language) : list bytes :=
  let quote t := bs "'" ++ t ++ bs "'" in
  [bs "Directory:   " ++ quote dir; bs "Message:     " ++ quote msg;
   bs "Language:    " ++ quote (str l) ++ bs " (name: " ++ quote (get_name l) ++ bs ", language: " ++ quote (get_language l) ++
   bs ", country: " ++ quote (get_country l) ++ bs ", modifier: " ++ quote (get_modifier l) ++ bs ")"].

(** the command lines of tinygettext_test that are understood (arguments after the program's
    name), and what is printed for all others *)
Inductive understood : list bytes -> Prop :=
| u_language_dir d : understood [bs "language-dir"; d]
| u_language l : understood [bs "language"; l]
| u_list f : understood [bs "list-msgstrs"; f]
| u_text f m : understood [bs "translate"; f; m]
| u_context f c m : understood [bs "translate"; f; c; m]
| u_number f s p n : understood [bs "translate"; f; s; p; n]
| u_number_context f c s p n : understood [bs "translate"; f; c; s; p; n]
| u_directory d m : understood [bs "directory"; d; m]
| u_directory_lang d m l : understood [bs "directory"; d; m; l].
Definition usage (prog : bytes) : list bytes :=
  [bs "Usage: " ++ prog ++ bs " translate FILE MESSAGE"; bs "       " ++ prog ++ bs " translate FILE MESSAGE_S MESSAGE_P NUM";
   bs "       " ++ prog ++ bs " directory DIRECTORY MESSAGE [LANG]"; bs "       " ++ prog ++ bs " language LANGUAGE";
   bs "       " ++ prog ++ bs " language-dir DIR"; bs "       " ++ prog ++ bs " list-msgstrs FILE"].
