(** Model of src/language.cpp and include/tinygettext/language.hpp. *)
From Verif.Model Require Import Base LanguageTable.
Local Open Scope list_scope.

(** struct LanguageSpec, language.cpp:29-44. [ls_addr] is the position in the
    static array and stands for the object's address (pointer identity and order);
    the temporary of from_spec gets an address outside the array. *)
Record language_spec := {
  ls_addr : nat;
  ls_language : bytes;
  ls_country : option bytes;
  ls_modifier : option bytes;
  ls_name : bytes;
  ls_localized : option bytes }.

Definition bso (o : option string) : option bytes :=
  match o with Some s => Some (bs s) | None => None end.

Fixpoint number (i : nat) (l : list (string * option string * option string * string * option string))
  : list language_spec :=
  match l with
  | [] => []
  | (la, co, mo, na, lo) :: l' =>
      {| ls_addr := i; ls_language := bs la; ls_country := bso co; ls_modifier := bso mo;
         ls_name := bs na; ls_localized := bso lo |} :: number (S i) l'
  end.

(** static const LanguageSpec languages[], language.cpp:48-290 *)
Definition languages : list language_spec := number 0 raw_languages.

(** class Language: a possibly null pointer to a LanguageSpec, language.hpp:31-36 *)
Definition language := option language_spec.

(** getters, language.cpp:507-550 *)
Definition get_language (l : language) : bytes :=
  match l with Some s => ls_language s | None => [] end.
Definition get_country (l : language) : bytes :=
  match l with Some s => match ls_country s with Some c => c | None => [] end | None => [] end.
Definition get_modifier (l : language) : bytes :=
  match l with Some s => match ls_modifier s with Some c => c | None => [] end | None => [] end.
Definition get_name (l : language) : bytes :=
  match l with Some s => ls_name s | None => [] end.
Definition get_localized_name (l : language) : bytes :=
  match l with
  | Some s => match ls_localized s with Some n => n | None => get_name l end
  | None => get_name l
  end.

(** str(), language.cpp:552-576 *)
Definition str (l : language) : bytes :=
  match l with
  | Some s =>
      ls_language s
      ++ match ls_country s with Some c => c_us :: c | None => [] end
      ++ match ls_modifier s with Some m => c_at :: m | None => [] end
  | None => []
  end.

(** operator==, language.cpp:578-582: pointer equality *)
Definition lang_eqb (a b : language) : bool :=
  match a, b with
  | None, None => true
  | Some x, Some y => Nat.eqb (ls_addr x) (ls_addr y)
  | _, _ => false
  end.

(** operator!=, language.cpp:584-588 *)
Definition lang_neqb (a b : language) : bool := negb (lang_eqb a b).

(** explicit operator bool, language.hpp:61 *)
Definition lang_defined (l : language) : bool := match l with Some _ => true | None => false end.

(** Language_hash, language.hpp:94-100: the pointer's numeric value, here an arbitrary
    assignment [addr] of numbers to the array elements and to nullptr. *)
Definition lang_hash (addr : option nat -> N) (l : language) : N :=
  addr (match l with Some s => Some (ls_addr s) | None => None end).

(** operator<, language.hpp:90-92: pointer order; a null pointer is taken to be
    smaller than any array element (unspecified by C++, true on flat memory). *)
Definition lang_ltb (a b : language) : bool :=
  match a, b with
  | None, Some _ => true
  | Some x, Some y => Nat.ltb (ls_addr x) (ls_addr y)
  | _, None => false
  end.

(** match_tbl, language.cpp:480-485 *)
Definition match_tbl (c m : nat) : Z :=
  nth m (nth c [[9; 8; 5]; [7; 6; 3]; [4; 2; 1]]%Z []) 0%Z.

(** The three-way comparison of language.cpp:487-501 *)
Definition part_cmp (a b : bytes) : nat :=
  if bytes_eqb a b then 0
  else if is_nil a || is_nil b then 1
  else 2.

(** Language::match, language.cpp:471-505 *)
Definition lang_match (lhs rhs : language) : Z :=
  if negb (bytes_eqb (get_language lhs) (get_language rhs)) then 0%Z
  else match_tbl (part_cmp (get_country lhs) (get_country rhs))
                 (part_cmp (get_modifier lhs) (get_modifier rhs)).

(** The selection loop of from_spec, language.cpp:399-410 *)
Definition best_step (tmp : language) (best : option language_spec * Z) (j : language_spec)
  : option language_spec * Z :=
  let score := lang_match (Some j) tmp in
  if (snd best <? score)%Z then (Some j, score) else best.

(** Language::from_spec, language.cpp:376-418. language_map[l] is the vector of
    the specs with code l in array order (language.cpp:382-386; the map is modelled
    as already initialised, see LazyInit.v). tmpspec holds the c_str() of the
    arguments, so it ends at an embedded NUL. [ndebug]: assert compiled out. *)
Definition from_spec (ndebug : bool) (la co mo : bytes) : outcome language :=
  let lst := List.filter (fun s => bytes_eqb (ls_language s) la) languages in
  match lst with
  | [] => Ret None
  | _ =>
      let tmp := Some {| ls_addr := length languages; ls_language := c_str la;
                         ls_country := Some (c_str co); ls_modifier := Some (c_str mo);
                         ls_name := []; ls_localized := None |} in
      match fst (fold_left (best_step tmp) lst (None, 0%Z)) with
      | Some b => Ret (Some b)
      | None => if ndebug then Ret None else AssertFail
      end
  end.

(** Language::from_env, language.cpp:426-459, with size_t arithmetic. codeset is
    computed (its substr could throw) and dropped. *)
Definition from_env (ndebug : bool) (env : bytes) : outcome language :=
  let ln := of_find (find_char c_us env) in
  let dt := of_find (find_char c_dot env) in
  let at_ := of_find (find_char c_at env) in
  let chk o k := match o with Some s => k s | None => Exn ExOutOfRange end in
  chk (substr env 0 (N.min (N.min ln dt) at_)) (fun la =>
  chk (if (negb (ln =? npos) && (ln + 1 <? size env))%N
       then substr env (ln + 1) (if (N.min dt at_ =? npos)%N then npos
                                 else sub64 (N.min dt at_) (ln + 1))
       else Some []) (fun co =>
  chk (if (negb (dt =? npos) && (dt + 1 <? size env))%N
       then substr env (dt + 1) (if (at_ =? npos)%N then npos else sub64 at_ (dt + 1))
       else Some []) (fun _codeset =>
  chk (if (negb (at_ =? npos) && (at_ + 1 <? size env))%N
       then substr env (at_ + 1) npos
       else Some []) (fun mo =>
  from_spec ndebug la co mo)))).

(** resolve_language_alias, language.cpp:295-372 *)
Definition aliases : list (bytes * bytes) :=
  List.map (fun r => (bs (fst r), bs (snd r))) raw_aliases.

Definition resolve_language_alias (strict : bool) (name : bytes) : outcome bytes :=
  if strict && existsb hi name then Ub UbCtype
  else match assoc (List.map tolower name) aliases with
       | Some r => Ret r
       | None => Ret name
       end.

(** Language::from_name, language.cpp:420-424 *)
Definition from_name (strict ndebug : bool) (spec_str : bytes) : outcome language :=
  obind (resolve_language_alias strict spec_str) (from_env ndebug).
