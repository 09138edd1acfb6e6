(** What the application's code may do to a manager that is in the middle of a call. *)
From Verif.Model Require Import Base Log PluralForms Dictionary IConv Language Stream PoParser Manager Reentrant.
Local Open Scope list_scope.

(** Calls that leave the cache alone: all but set_charset, set_use_fuzzy, add_directory
    of a new directory and remove_directory of a present one. *)
Definition harmless (path : list bytes) (op : mop) : Prop :=
  match op with
  | OpSetCharset _ | OpSetUseFuzzy _ => False
  | OpAddDirectory p _ => In p path
  | OpRemoveDirectory p => ~ In p path
  | _ => True
  end.

(** [plays cf allowed m m']: code that makes any number of allowed calls on the manager
    takes it from [m] to [m'] - each call, while it runs, being interrupted by more such
    code (with whatever file system and log messages it meets), to any depth. Calls that
    throw are caught; the code itself does not use a dangling reference. *)
Inductive plays (cf : config) (allowed : list bytes -> mop -> Prop) : manager -> manager -> Prop :=
| plays_nothing m : plays cf allowed m m
| plays_call m op fs env cuts m2 :
    allowed (m_path m) op ->
    (forall n pt x, plays cf allowed x (env n pt x)) ->
    plays cf allowed (i_m (snd (istep cf fs env cuts op (start_ist m)))) m2 ->
    plays cf allowed m m2.

Definition anything (path : list bytes) (op : mop) : Prop := True.

(** [later_calls d d']: [d'] is [d] after some more calls on it (translations added, plural
    forms set), none of its translations being lost. *)
Definition later_calls (d d' : dictionary) : Prop := exists cs, d' = fold_left apply_call cs d.

(** get_dictionary(l) returns dictionary [p] at once, without reading anything *)
Definition has_ready (cf : config) (m : manager) (l : language) (p : ptr) : Prop :=
  forall fs, mstep cf fs (OpGetDictionaryLang l) m = (Ret (OutRef (RefHeap p)), m).

(** dictionary [p] holds [d], what was read for [l]; if [l] has a country, with the
    dictionary of the base language as its fallback *)
Definition loaded_as (cf : config) (l : language) (d : dictionary) (m : manager) (p : ptr) : Prop :=
  (get_country l = [] /\ heap_get (m_heap m) p = Some d) \/
  (get_country l <> [] /\ exists b q, from_spec (cf_ndebug cf) (get_language l) [] [] = Ret (Some b) /\
     has_ready cf m (Some b) q /\ heap_get (m_heap m) p = Some (add_fallback d (Some q))).
