(** Histories of calls during which anything may fail. *)
From Verif.Model Require Import Base Log PluralForms Dictionary IConv Language Stream PoParser Manager Tables Exhaustion.
From Verif.Spec Require Import DictSpec LangSpec ManagerSpec.
Local Open Scope list_scope.

(** clients pass languages they got from the library *)
Definition xvalid (ops : list (file_system * env * mop)) : Prop := Forall (fun o => client_op (snd o)) ops.

(** the number of calls of the history that throw std::bad_alloc *)
Fixpoint failures (cf : config) (ops : list (file_system * env * mop)) (s : xstate) : nat :=
  match ops with
  | [] => 0
  | (fs, E, op) :: ops' =>
      match fst (xcall cf fs E op s) with Exn (ExRuntime w) => if bytes_eqb w (bs "std::bad_alloc") then 1 else 0 | _ => 0 end
      + failures cf ops' (snd (xcall cf fs E op s))
  end.

(** nothing fails: every request is granted, and the parser does what it does *)
Definition all_well (cf : config) (E : env) : Prop :=
  (forall n, e_ok E n = true) /\
  forall n f i d, let r := po_parse cf f i d in
    fst (fst (e_parse E n f i d)) = pr_outcome r /\
    fold_left apply_change (snd (fst (e_parse E n f i d))) d = pr_dict r /\
    snd (e_parse E n f i d) = pr_trace r.

(** neither the file system nor the parser has undefined behaviour of its own (but for
    ctype functions applied to a negative char, C37) *)
Definition decent (cf : config) (fs : file_system) (E : env) : Prop :=
  well_behaved fs /\
  forall n f i d u, fst (fst (e_parse E n f i d)) = Ub u -> u = UbCtype /\ cf_strict cf = true.

(** calls that do not empty the cache *)
Definition keeps (op : mop) : Prop :=
  match op with
  | OpSetCharset _ | OpSetUseFuzzy _ | OpAddDirectory _ _ | OpRemoveDirectory _ => False
  | _ => True
  end.

(** Only the manager is ever short of memory: request [n] is granted if [ok n]. *)
Definition short (cf : config) (ok : nat -> bool) : env := {|
  e_ok := ok; e_cut := fun _ => 0;
  e_parse := fun _ f i d => let r := po_parse cf f i d in (pr_outcome r, List.map Done (pr_calls r), pr_trace r) |}.
(** Only the parser is ever short of memory: it throws after [k] calls on the dictionary, the last one failing itself. *)
Definition parser_short (cf : config) (k : nat) (op : add_op) : env := {|
  e_ok := fun _ => true; e_cut := fun _ => 0;
  e_parse := fun _ f i d => let r := po_parse cf f i d in
     (Exn bad_alloc, List.map Done (firstn k (pr_calls r)) ++ [Failed op (fun _ => false) true true], pr_trace r) |}.
