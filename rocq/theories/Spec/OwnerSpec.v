(** What a program that owns dictionaries can rely on: each dictionary is a map plus a
    plural rule, a charset and the argument of the last addFallback call, if any; a lookup
    that finds nothing goes on in that other dictionary. *)
From Verif.Model Require Import Base PluralForms Dictionary Owner.
From Verif.Spec Require Import DictSpec.
Local Open Scope list_scope.

Record facts := {
  its_catalogue : catalogue;
  its_plural : plural_forms;
  its_charset : bytes;
  its_fallback : option (option ptr) }.     (* None: addFallback was never called; Some None: null pointer *)

Definition at_birth (cs : bytes) : facts :=
  {| its_catalogue := fun _ => None; its_plural := pf_none; its_charset := cs; its_fallback := None |}.

(** The forms a function applied to every entry without (with) context leaves. *)
Definition rewritten (f : bytes -> list bytes -> list bytes) (m : catalogue) : catalogue :=
  fun k => match k, m k with (None, i), Some v => Some (f i v) | _, o => o end.
Definition rewritten_ctxt (f : bytes -> bytes -> list bytes -> list bytes) (m : catalogue) : catalogue :=
  fun k => match k, m k with (Some c, i), Some v => Some (f c i v) | _, o => o end.

Definition with_catalogue (x : facts) (m : catalogue) : facts :=
  {| its_catalogue := m; its_plural := its_plural x; its_charset := its_charset x; its_fallback := its_fallback x |}.

Definition after_call (op : dict_op) (x : facts) : facts :=
  match op with
  | DoAdd op => with_catalogue x (spec_add (its_catalogue x) op)
  | DoSetPlural p => {| its_catalogue := its_catalogue x; its_plural := p; its_charset := its_charset x; its_fallback := its_fallback x |}
  | DoAddFallback q => {| its_catalogue := its_catalogue x; its_plural := its_plural x; its_charset := its_charset x; its_fallback := Some q |}
  | DoForeach f => with_catalogue x (rewritten f (its_catalogue x))
  | DoForeachCtxt f => with_catalogue x (rewritten_ctxt f (its_catalogue x))
  end.

(** All objects: how many have been constructed, and what is known of those alive. *)
Record world := { born : nat; alive : ptr -> option facts }.
Definition nothing : world := {| born := 0; alive := fun _ => None |}.
Definition put_at (a : ptr -> option facts) (p : ptr) (x : option facts) : ptr -> option facts :=
  fun q => if Nat.eq_dec q p then x else a q.

(** None: the program made an undefined call. *)
Definition world_step (w : world) (op : owner_op) : option world :=
  match op with
  | New cs => Some {| born := S (born w); alive := put_at (alive w) (born w) (Some (at_birth cs)) |}
  | Delete p =>
      match alive w p with
      | None => None
      | Some _ => Some {| born := born w; alive := put_at (alive w) p None |}
      end
  | Call p op =>
      match alive w p with
      | None => None
      | Some x => Some {| born := born w; alive := put_at (alive w) p (Some (after_call op x)) |}
      end
  end.
Fixpoint world_run (w : world) (ops : list owner_op) : option world :=
  match ops with
  | [] => Some w
  | op :: ops' => match world_step w op with None => None | Some w' => world_run w' ops' end
  end.

(** ** Answers *)
(** Dictionary [p] has a translation [t] for the key [k]. *)
Definition has (w : world) (p : ptr) (k : key) (t : bytes) : Prop :=
  exists x rest, alive w p = Some x /\ its_catalogue x k = Some (t :: rest).
(** The query [k] on [p] finds nothing and goes on at [q]: an addFallback(q) call was the
    last one, and if [k] has a context, the dictionary has some entry in that context. *)
Definition goes_on (w : world) (p : ptr) (k : key) (q : option ptr) : Prop :=
  exists x, alive w p = Some x /\ (forall t rest, its_catalogue x k <> Some (t :: rest)) /\
  its_fallback x = Some q /\
  (fst k = None \/ exists i, its_catalogue x (fst k, i) <> None).
(** It finds nothing and stops. *)
Definition stops (w : world) (p : ptr) (k : key) : Prop :=
  exists x, alive w p = Some x /\ (forall t rest, its_catalogue x k <> Some (t :: rest)) /\
  (its_fallback x = None \/ (fst k <> None /\ forall i, its_catalogue x (fst k, i) = None)).

(** The three things that can happen to a query. *)
Inductive says (w : world) : ptr -> key -> bytes -> Prop :=
| says_own : forall p k t, has w p k t -> says w p k t
| says_msgid : forall p k, stops w p k -> says w p k (snd k)
| says_fallback : forall p k q t, goes_on w p k (Some q) -> says w q (None, snd k) t -> says w p k t.
Inductive dangles (w : world) : ptr -> key -> Prop :=
| dangles_null : forall p k, goes_on w p k None -> dangles w p k
| dangles_dead : forall p k q, goes_on w p k (Some q) -> alive w q = None -> dangles w p k
| dangles_later : forall p k q, goes_on w p k (Some q) -> dangles w q (None, snd k) -> dangles w p k.
CoInductive circles (w : world) : ptr -> key -> Prop :=
| circles_on : forall p k q, goes_on w p k (Some q) -> circles w q (None, snd k) -> circles w p k.

(** [query h d k]: translate or translate_ctxt, depending on the key. *)
Definition query (fuel : nat) (h : heap) (d : dictionary) (k : key) : outcome bytes :=
  match fst k with
  | None => fst (translate fuel h d (snd k))
  | Some c => fst (translate_ctxt fuel h d c (snd k))
  end.
Definition query_plural (d : dictionary) (k : key) (pl : bytes) (n : Z) : bytes :=
  match fst k with
  | None => fst (translate_plural d (snd k) pl n)
  | Some c => fst (translate_ctxt_plural d c (snd k) pl n)
  end.
