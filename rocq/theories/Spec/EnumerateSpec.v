(** What an enumeration promises, whatever its function does to the dictionary. *)
From Coq Require Import Permutation.
From Verif.Model Require Import Base Log PluralForms Dictionary Enumerate.
From Verif.Spec Require Import DictSpec.
Local Open Scope list_scope.

(** a function object: its state, what it is called with, the add_translation calls it makes *)
Definition function (X : Type) := X -> key -> list bytes -> dictionary -> X * list add_op.

(** foreach ([ctxts] = false) or foreach_ctxt ([ctxts] = true) of f, in state x, on dictionary d *)
Definition enumerate {X} (ctxts : bool) (place : nat -> placing) (arrange : nat -> list bytes -> list bytes)
    (f : function X) (fuel : nat) (x : X) (d : dictionary) :=
  if ctxts then foreach_ctxt_calls X place arrange f fuel x d else foreach_calls X place arrange f fuel x d.
(** it returns in state x' after these calls of f, leaving the dictionary d' *)
Definition returns {X} ctxts place arrange (f : function X) (x : X) (d : dictionary) (x' : X) (seen : list visit) (d' : dictionary) : Prop :=
  exists fuel, enumerate ctxts place arrange f fuel x d = Some (Ret x', seen, d').
Definition undefined {X} ctxts place arrange (f : function X) (x : X) (d : dictionary) : Prop :=
  exists fuel u seen d', enumerate ctxts place arrange f fuel x d = Some (Ub u, seen, d').

(** an order of iteration *)
Definition some_order (arrange : nat -> list bytes -> list bytes) : Prop :=
  forall n l, Permutation l (arrange n l).

(** the messages foreach (foreach_ctxt) is about *)
Definition concerns (ctxts : bool) (k : key) : Prop :=
  match fst k with None => ctxts = false | Some _ => ctxts = true end.

Definition v_key (v : visit) : key := fst (fst v).
Definition v_ops (v : visit) : list add_op := snd v.
Definition all_ops (seen : list visit) : list add_op := List.concat (List.map v_ops seen).
(** every call of f is made with the forms its message has just then, and does what f does *)
Fixpoint faithful {X} (f : function X) (x : X) (d : dictionary) (seen : list visit) (x' : X) : Prop :=
  match seen with
  | [] => x' = x
  | (k, forms, ops) :: seen' =>
      lookup d k = Some forms /\ snd (f x k forms d) = ops /\ faithful f (fst (f x k forms d)) (add_all d ops) seen' x'
  end.

(** does the call insert a key into a map being enumerated, while message k is visited? *)
Definition absent (d : dictionary) (k : key) : bool := match lookup d k with None => true | Some _ => false end.
Definition no_context (d : dictionary) (c : bytes) : bool :=
  forallb (fun m => negb (bytes_eqb (fst (fst m)) c)) (foreach_ctxt d).
Definition inserts (d : dictionary) (k : key) (op : add_op) : bool :=
  match fst k, fst (op_key op) with
  | None, None => absent d (op_key op)
  | Some c, Some c' => no_context d c' || (bytes_eqb c c' && absent d (op_key op))
  | _, _ => false
  end.
Fixpoint insertions_of (d : dictionary) (k : key) (ops : list add_op) : nat :=
  match ops with
  | [] => 0
  | op :: ops' => (if inserts d k op then 1 else 0) + insertions_of (fst (add_translation d op)) k ops'
  end.
Fixpoint insertions (d : dictionary) (seen : list visit) : nat :=
  match seen with
  | [] => 0
  | v :: seen' => insertions_of d (v_key v) (v_ops v) + insertions (add_all d (v_ops v)) seen'
  end.

(** a function that adds no key to a map while it is being enumerated: foreach may change messages
    that are there and add messages with a context; foreach_ctxt may change messages that are
    there, add messages without context, and add messages to other contexts that are there *)
Definition in_place {X} (d : dictionary) (f : function X) : Prop :=
  forall x k forms d' op, In op (snd (f x k forms d')) ->
    lookup d (op_key op) <> None \/
    match fst k, fst (op_key op) with
    | None, None => False
    | Some c, Some c' => c' <> c /\ exists i, lookup d (Some c', i) <> None
    | _, _ => True
    end.
