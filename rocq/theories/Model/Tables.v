(** The function-static tables when memory runs out while they are being filled:
    plural_forms.cpp:67-98, language.cpp:298-356, language.cpp:379-386. Each is filled by the
    first call that finds it empty, row by row; a std::bad_alloc thrown in between leaves the
    call, and the table as far as it has been filled. Assumed of the standard library:
    unordered_map::operator[], vector::push_back and string::operator= have no effect if they
    throw. A request stands for all allocations of one such operation; an operation that does
    not need memory is one whose request is granted. *)
From Verif.Model Require Import Base PluralForms LanguageTable Language.
Local Open Scope list_scope.

Section Fill.
  Context {R V : Type}.
  (** the key of a row; the value operator[] makes; the value after the row has been written *)
  Variable key : R -> bytes.
  Variable fresh : V.
  Variable write : V -> R -> V.
  (** may writing throw? *)
  Variable asks : bool.

  (** table[key] = value; or table[key].push_back(value); for each row. [n] requests have been
      made. The result tells whether the last row has been reached. *)
  Fixpoint fill (grants : nat -> bool) (n : nat) (rows : list R) (t : list (bytes * V)) : bool * list (bytes * V) :=
    match rows with
    | [] => (true, t)
    | r :: rows' =>
        match assoc (key r) t, grants n with
        | None, false => (false, t)                                        (* operator[] throws *)
        | o, _ =>
            let v := match o with Some v => v | None => fresh end in
            let t1 := assoc_set (key r) v t in
            if asks && negb (grants (S n)) then (false, t1)                (* the writing throws *)
            else fill grants (S (S n)) rows' (assoc_set (key r) (write v r) t1)
        end
    end.
  (** if (table.empty()) { ... } *)
  Definition fill_if_empty (grants : nat -> bool) (rows : list R) (t : list (bytes * V)) : bool * list (bytes * V) :=
    if is_nil t then fill grants 0 rows t else (true, t).
End Fill.

(** language_map, language.cpp:379-386: language_map[languages[i].language].push_back(&languages[i]) *)
Definition lang_map := list (bytes * list language_spec).
Definition fill_langs (grants : nat -> bool) (t : lang_map) : bool * lang_map :=
  fill_if_empty ls_language [] (fun v s => v ++ [s]) true grants languages t.
(** language_aliases, language.cpp:298-356: language_aliases["..."] = "..." *)
Definition alias_map := list (bytes * bytes).
Definition fill_aliases (grants : nat -> bool) (t : alias_map) : bool * alias_map :=
  fill_if_empty fst [] (fun _ r => snd r) true grants aliases t.
(** plural_forms, plural_forms.cpp:67-98; assigning a PluralForms cannot fail *)
Definition plural_map := list (bytes * plural_forms).
Definition fill_plurals (grants : nat -> bool) (t : plural_map) : bool * plural_map :=
  fill_if_empty fst pf_none (fun _ r => snd r) false grants plural_table t.

(** the lookup and the selection loop of from_spec, language.cpp:388-417 *)
Definition select_spec (ndebug : bool) (t : lang_map) (la co mo : bytes) : outcome language :=
  match assoc la t with
  | None => Ret None
  | Some lst =>
      let tmp := Some {| ls_addr := length languages; ls_language := c_str la;
                         ls_country := Some (c_str co); ls_modifier := Some (c_str mo);
                         ls_name := []; ls_localized := None |} in
      match fst (fold_left (best_step tmp) lst (None, 0%Z)) with
      | Some b => Ret (Some b)
      | None => if ndebug then Ret None else AssertFail
      end
  end.

(** The static data of the library. *)
Record tables := { tb_langs : lang_map; tb_aliases : alias_map; tb_plurals : plural_map }.
Definition no_tables : tables := {| tb_langs := []; tb_aliases := []; tb_plurals := [] |}.

(** The luck of one call: the requests made while a table is filled, and whether there is
    memory for the call's own strings (which it makes before, between and after that). *)
Record luck := { lk_aliases : nat -> bool; lk_langs : nat -> bool; lk_plurals : nat -> bool;
                 lk_before : bool; lk_after : bool }.
Definition bad_alloc : exn := ExRuntime (bs "std::bad_alloc").

Section Calls.
  Variable strict ndebug : bool.

  (** Language::from_spec, language.cpp:376-418 *)
  Definition from_spec_mem (k : luck) (la co mo : bytes) (t : tables) : outcome language * tables :=
    let (ok, m) := fill_langs (lk_langs k) (tb_langs t) in
    let t' := {| tb_langs := m; tb_aliases := tb_aliases t; tb_plurals := tb_plurals t |} in
    if ok then (select_spec ndebug m la co mo, t') else (Exn bad_alloc, t').

  (** Language::from_env, language.cpp:426-459, the final call left open *)
  Definition split_env (env : bytes) : outcome (bytes * bytes * bytes) :=
    let ln := of_find (find_char c_us env) in
    let dt := of_find (find_char c_dot env) in
    let at_ := of_find (find_char c_at env) in
    let chk o k := match o with Some s => k s | None => Exn ExOutOfRange end in
    chk (substr env 0 (N.min (N.min ln dt) at_)) (fun la =>
    chk (if (negb (ln =? npos) && (ln + 1 <? size env))%N
         then substr env (ln + 1) (if (N.min dt at_ =? npos)%N then npos
                                   else sub64 (N.min dt at_) (ln + 1))
         else Some []) (fun co =>
    chk (if (negb (dt =? npos) && (dt + 1 <? size env))%N
         then substr env (dt + 1) (if (at_ =? npos)%N then npos else sub64 at_ (dt + 1))
         else Some []) (fun _codeset =>
    chk (if (negb (at_ =? npos) && (at_ + 1 <? size env))%N
         then substr env (at_ + 1) npos
         else Some []) (fun mo => Ret (la, co, mo))))).
  Definition from_env_mem (k : luck) (env : bytes) (t : tables) : outcome language * tables :=
    if lk_after k then
      match split_env env with
      | Ret (la, co, mo) => from_spec_mem k la co mo t
      | Exn e => (Exn e, t) | Ub u => (Ub u, t) | AssertFail => (AssertFail, t) | OutOfFuel => (OutOfFuel, t)
      end
    else (Exn bad_alloc, t).

  (** resolve_language_alias, language.cpp:295-372; Language::from_name, language.cpp:420-424 *)
  Definition from_name_mem (k : luck) (name : bytes) (t : tables) : outcome language * tables :=
    let (ok, m) := fill_aliases (lk_aliases k) (tb_aliases t) in
    let t' := {| tb_langs := tb_langs t; tb_aliases := m; tb_plurals := tb_plurals t |} in
    if ok && lk_before k then
      if strict && existsb hi name then (Ub UbCtype, t')
      else from_env_mem k (match assoc (List.map tolower name) m with Some r => r | None => name end) t'
    else (Exn bad_alloc, t').

  (** PluralForms::from_string, plural_forms.cpp:64-115 *)
  Definition from_string_mem (k : luck) (str : bytes) (t : tables) : outcome plural_forms * tables :=
    let (ok, m) := fill_plurals (lk_plurals k) (tb_plurals t) in
    let t' := {| tb_langs := tb_langs t; tb_aliases := tb_aliases t; tb_plurals := m |} in
    if ok && lk_after k then
      if strict && existsb hi str then (Ub UbCtype, t')
      else (match assoc (strip_spaces str) m with Some p => Ret p | None => Ret pf_none end, t')
    else (Exn bad_alloc, t').

  (** The calls of a program that reach the tables, whether made by the program or by the
      library on its behalf. *)
  Inductive tcall :=
  | CallSpec (la co mo : bytes)
  | CallEnv (env : bytes)
  | CallName (name : bytes)
  | CallPlural (str : bytes).
  Inductive tanswer := AnsLang (l : language) | AnsPlural (p : plural_forms).
  Definition tcall_step (k : luck) (c : tcall) (t : tables) : outcome tanswer * tables :=
    match c with
    | CallSpec la co mo => let (o, t') := from_spec_mem k la co mo t in (omap AnsLang o, t')
    | CallEnv e => let (o, t') := from_env_mem k e t in (omap AnsLang o, t')
    | CallName n => let (o, t') := from_name_mem k n t in (omap AnsLang o, t')
    | CallPlural s => let (o, t') := from_string_mem k s t in (omap AnsPlural o, t')
    end.
  Definition tables_after (calls : list (luck * tcall)) (t : tables) : tables :=
    fold_left (fun t c => snd (tcall_step (fst c) (snd c) t)) calls t.
End Calls.
