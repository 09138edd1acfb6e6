(** What the calls that use the library's static tables should answer, and what they answer
    when a table has only some of its rows. *)
From Verif.Model Require Import Base PluralForms LanguageTable Language Tables.
Local Open Scope list_scope.

(** the right answers: those of the complete tables *)
Definition right_answer (strict ndebug : bool) (c : tcall) : outcome tanswer :=
  match c with
  | CallSpec la co mo => omap AnsLang (from_spec ndebug la co mo)
  | CallEnv e => omap AnsLang (from_env ndebug e)
  | CallName n => omap AnsLang (from_name strict ndebug n)
  | CallPlural s => omap AnsPlural (from_string strict s)
  end.

(** from_spec if the library knew [rows] only (compare [from_spec], where rows = languages) *)
Definition from_rows (rows : list language_spec) (ndebug : bool) (la co mo : bytes) : outcome language :=
  let lst := List.filter (fun s => bytes_eqb (ls_language s) la) rows in
  match lst with
  | [] => Ret None
  | _ =>
      let tmp := Some {| ls_addr := length languages; ls_language := c_str la;
                         ls_country := Some (c_str co); ls_modifier := Some (c_str mo);
                         ls_name := []; ls_localized := None |} in
      match fst (fold_left (best_step tmp) lst (None, 0%Z)) with
      | Some b => Ret (Some b)
      | None => if ndebug then Ret None else AssertFail
      end
  end.

(** no call has reported std::bad_alloc *)
Fixpoint untroubled (strict ndebug : bool) (calls : list (luck * tcall)) (t : tables) : Prop :=
  match calls with
  | [] => True
  | (k, c) :: calls' =>
      fst (tcall_step strict ndebug k c t) <> Exn bad_alloc /\
      untroubled strict ndebug calls' (snd (tcall_step strict ndebug k c t))
  end.

(** enough memory *)
Definition plenty (k : luck) : Prop :=
  (forall n, lk_aliases k n = true) /\ (forall n, lk_langs k n = true) /\ (forall n, lk_plurals k n = true) /\
  lk_before k = true /\ lk_after k = true.

(** a key is looked up in a table that has the first [n] of its rows, and possibly one key
    [blank] without its value *)
Definition looked_up {V} (rows : list (bytes * V)) (n : nat) (blank : option bytes) (fresh : V) (x : bytes) : option V :=
  if match blank with Some b => bytes_eqb x b | None => false end then Some fresh else assoc x (firstn n rows).
