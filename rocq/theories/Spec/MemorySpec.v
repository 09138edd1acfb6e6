(** What may have happened to a message whose add_translation ran out of memory. *)
From Verif.Model Require Import Base Log PluralForms Dictionary Memory.
From Verif.Spec Require Import DictSpec.
Local Open Scope list_scope.

(** the forms afterwards, [old] being those before: nothing has changed; or a message that was
    not there is there now, without any form; or (plural call) the first [n] forms are new
    already and the others old still *)
Inductive half_done (op : add_op) : option (list bytes) -> option (list bytes) -> Prop :=
| untouched old : half_done op old old
| no_forms_yet : half_done op None (Some [])
| first_forms_only c i pl new old n : op = AddPlural c i pl new -> n <= length new -> n <= length old ->
    half_done op (Some old) (Some (firstn n new ++ skipn n old)).

(** the call replaces forms [old] that are there by others, which is worth a warning *)
Definition overwrites (op : add_op) (before : option (list bytes)) (old : list bytes) : Prop :=
  before = Some old /\ old <> [] /\ new_forms before op <> old.

(** a history of calls, each with its own luck; it ends where the program is terminated *)
Record attempt := { at_op : add_op; at_grants : nat -> bool; at_room : bool; at_told : bool }.
Fixpoint attempts (l : list attempt) (d : dictionary) : option (list bool * dictionary) :=
  match l with
  | [] => Some ([], d)
  | a :: l' =>
      match add_call (at_grants a) (at_room a) (at_told a) d (at_op a) with
      | (Terminate, _, _) => None
      | (f, d', _) =>
          match attempts l' d' with
          | Some (oks, d'') => Some (match f with Fine _ => true | _ => false end :: oks, d'')
          | None => None
          end
      end
  end.
(** a message none of whose calls failed *)
Definition lucky (l : list attempt) (oks : list bool) (k : key) : Prop :=
  forall a ok, In (a, ok) (combine l oks) -> op_key (at_op a) = k -> ok = true.
