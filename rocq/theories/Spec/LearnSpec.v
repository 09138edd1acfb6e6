(** What lookups and additions promise when the log callbacks add translations to the same dictionary. *)
From Verif.Model Require Import Base Log PluralForms Dictionary Enumerate Learn.
From Verif.Spec Require Import DictSpec.
Local Open Scope list_scope.

(** the callbacks of the three levels, if set: given the text, the state of the program and the
    dictionary, the new state and the calls of add_translation it makes *)
Definition callbacks (X : Type) := level -> option (bytes -> X -> dictionary -> X * list add_op).

Section Spec.
  Context {X : Type}.
  Variable place : nat -> placing.
  Variable arrange : nat -> list bytes -> list bytes.
  Variable f : callbacks X.

  (** the lookup q on dictionary d, in state x, answers a, and leaves x' and d' *)
  Definition answers (q : question) (x : X) (d : dictionary) (a : bytes) (x' : X) (d' : dictionary) : Prop :=
    exists n m s, ask X place arrange f n m q (idle X x d) = Ret (a, s) /\ b_x s = x' /\ b_dict s = d'.
  Definition lookup_undefined (q : question) (x : X) (d : dictionary) : Prop :=
    exists n m, ask X place arrange f n m q (idle X x d) = Ub UbPointer.
  Definition lookup_endless (q : question) (x : X) (d : dictionary) : Prop :=
    forall n m, ask X place arrange f n m q (idle X x d) = OutOfFuel.
  (** add_translation *)
  Definition added (op : add_op) (x : X) (d : dictionary) (x' : X) (d' : dictionary) : Prop :=
    exists n s, add_call X place f n op (idle X x d) = Ret s /\ b_x s = x' /\ b_dict s = d'.
  Definition addition_undefined (op : add_op) (x : X) (d : dictionary) : Prop :=
    exists n, add_call X place f n op (idle X x d) = Ub UbIndex.
  Definition addition_endless (op : add_op) (x : X) (d : dictionary) : Prop :=
    forall n, add_call X place f n op (idle X x d) = OutOfFuel.

  (** callbacks that a lookup survives: the warning callback adds nothing; the info callback, told
      about a candidate ('...'), adds to messages only that are there *)
  Definition considerate : Prop :=
    (forall g, f LWarning = Some g -> forall t x d, snd (g t x d) = []) /\
    (forall g, f LInfo = Some g -> forall t x d op, In op (snd (g (bs "'" ++ t) x d)) -> lookup d (op_key op) <> None).
  (** callbacks that, told about a candidate, add a message that is not there yet to the entries of
      context c, and otherwise nothing *)
  Definition learning (c : option bytes) : Prop :=
    exists g, f LInfo = Some g /\
      (forall t x d, exists op, snd (g (bs "'" ++ t) x d) = [op] /\ fst (op_key op) = c /\ lookup d (op_key op) = None) /\
      (forall t x d, hd_error t <> hd_error (bs "'") -> snd (g t x d) = []).
End Spec.

Definition right_answer (d : dictionary) (q : question) : bytes :=
  match q with
  | Singular c i => spec_translate (lookup d) (c, i)
  | Plural c i pl num => spec_translate_plural (lookup d) (d_plural d) (c, i) pl num
  end.
(** what it logs when the callbacks leave the dictionary alone *)
Definition usual_log (d : dictionary) (q : question) : list log_stmt :=
  match q with
  | Singular None i => snd (translate 1 [] d i)
  | Singular (Some c) i => snd (translate_ctxt 1 [] d c i)
  | Plural None i pl num => snd (translate_plural d i pl num)
  | Plural (Some c) i pl num => snd (translate_ctxt_plural d c i pl num)
  end.
(** callbacks that only remember *)
Definition recorder : callbacks (list (level * bytes)) :=
  fun lv => Some (fun t x _ => (x ++ [(lv, t)], [])).

(** op would overwrite different forms *)
Definition collides (d : dictionary) (op : add_op) : Prop :=
  exists old, lookup d (op_key op) = Some old /\ old <> [] /\ new_forms (Some old) op <> old.
(** the forms after the call *)
Definition has_last_word (d : dictionary) (op : add_op) : Prop :=
  match op with
  | AddSingular c i s => exists others, lookup d (c, i) = Some (s :: others)
  | AddPlural c i _ forms => lookup d (c, i) = Some forms
  end.
