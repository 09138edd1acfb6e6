(** Sessions of a program that changes the dictionaries of a manager. *)
From Verif.Model Require Import Base Log PluralForms Dictionary IConv Language Stream PoParser Manager Owner Client.
From Verif.Spec Require Import ManagerSpec.
Local Open Scope list_scope.

(** The calls on the manager in a session, without the changes. *)
Fixpoint calls_of (ops : list (file_system * cop)) : list (file_system * mop) :=
  match ops with
  | [] => []
  | (fs, CallManager op) :: ops' => (fs, op) :: calls_of ops'
  | (_, Change _ _) :: ops' => calls_of ops'
  end.

Definition same_ref (r r' : dict_ref) : bool :=
  match r, r' with
  | RefEmpty, RefEmpty => true
  | RefHeap p, RefHeap q => Nat.eqb p q
  | _, _ => false
  end.

(** The changes made through one reference. *)
Fixpoint changes_to (r : dict_ref) (ops : list (file_system * cop)) : list change :=
  match ops with
  | [] => []
  | (_, Change r' c) :: ops' => if same_ref r r' then c :: changes_to r ops' else changes_to r ops'
  | (_, CallManager _) :: ops' => changes_to r ops'
  end.

(** What one change makes of a dictionary: the call made on a Dictionary object that no
    manager knows of. *)
Definition changed_by (cf : config) (c : change) (d : dictionary) : dictionary :=
  match c with
  | ChAdd op => fst (add_translation d op)
  | ChPlural p => set_plural_forms d p
  | ChFallback q => add_fallback d q
  | ChForeach f => foreach_assign f d
  | ChForeachCtxt f => foreach_ctxt_assign f d
  | ChParse fn i => pr_dict (po_parse cf fn i d)
  end.
(** How it ends and what it logs. *)
Definition change_outcome (cf : config) (c : change) (d : dictionary) : outcome unit :=
  match c with ChParse fn i => pr_outcome (po_parse cf fn i d) | _ => Ret tt end.
Definition change_log (cf : config) (c : change) (d : dictionary) : list event :=
  match c with
  | ChAdd op => List.map EvLog (snd (add_translation d op))
  | ChParse fn i => pr_trace (po_parse cf fn i d)
  | _ => []
  end.
(** The dictionary they make of [d]. *)
Fixpoint changed (cf : config) (cs : list change) (d : dictionary) : dictionary :=
  match cs with [] => d | c :: cs' => changed cf cs' (changed_by cf c d) end.

(** The program never changes a dictionary through a reference that dangles, nor makes a
    dangling pointer a fallback; the languages it uses are ones it got from the library. *)
Definition sound_change (m : manager) (r : dict_ref) (c : change) : Prop :=
  deref m r <> None /\
  match c with ChFallback (Some q) => heap_get (m_heap m) q <> None | _ => True end.
Fixpoint sound (cf : config) (m : manager) (ops : list (file_system * cop)) : Prop :=
  match ops with
  | [] => True
  | (fs, op) :: ops' =>
      match op with CallManager op => client_op op | Change r c => sound_change m r c end /\
      sound cf (snd (cstep cf fs op m)) ops'
  end.
