(** General facts about byte strings, association lists and the outcome monad. *)
From Verif.Model Require Import Base.
From Coq Require Import Permutation.
Local Open Scope list_scope.

Lemma byte_eqb_spec : forall a b : byte, reflect (a = b) (byte_eqb a b).
Proof. intros. unfold byte_eqb. apply Ascii.eqb_spec. Qed.

Lemma byte_eqb_refl : forall a, byte_eqb a a = true.
Proof. intros. unfold byte_eqb. apply Ascii.eqb_refl. Qed.

Lemma byte_eqb_eq : forall a b, byte_eqb a b = true <-> a = b.
Proof. intros. unfold byte_eqb. apply Ascii.eqb_eq. Qed.

Lemma byte_eqb_neq : forall a b, byte_eqb a b = false <-> a <> b.
Proof. intros. unfold byte_eqb. apply Ascii.eqb_neq. Qed.

Lemma byte_eqb_sym : forall a b, byte_eqb a b = byte_eqb b a.
Proof. intros. unfold byte_eqb. apply Ascii.eqb_sym. Qed.

Lemma bytes_eqb_eq : forall a b, bytes_eqb a b = true <-> a = b.
Proof.
  induction a as [|x a IH]; destruct b as [|y b]; simpl; split; intros H; try easy.
  - apply andb_prop in H as [H1 H2]. apply byte_eqb_eq in H1. apply IH in H2. congruence.
  - inversion H; subst. rewrite byte_eqb_refl. simpl. now apply IH.
Qed.

Lemma bytes_eqb_spec : forall a b : bytes, reflect (a = b) (bytes_eqb a b).
Proof.
  intros. destruct (bytes_eqb a b) eqn:E; constructor.
  - now apply bytes_eqb_eq.
  - intros ->. assert (bytes_eqb b b = true) by now apply bytes_eqb_eq. congruence.
Qed.

Lemma bytes_eqb_refl : forall a, bytes_eqb a a = true.
Proof. intros. now apply bytes_eqb_eq. Qed.

Lemma bytes_eqb_neq : forall a b, bytes_eqb a b = false <-> a <> b.
Proof. intros. destruct (bytes_eqb_spec a b); split; congruence. Qed.

Lemma bytes_eqb_sym : forall a b, bytes_eqb a b = bytes_eqb b a.
Proof. intros. destruct (bytes_eqb_spec a b), (bytes_eqb_spec b a); congruence. Qed.

Lemma bytes_eq_dec : forall a b : bytes, {a = b} + {a <> b}.
Proof. intros. destruct (bytes_eqb_spec a b); [left|right]; assumption. Qed.

Lemma strs_eqb_eq : forall a b, strs_eqb a b = true <-> a = b.
Proof.
  induction a as [|x a IH]; destruct b as [|y b]; simpl; split; intros H; try easy.
  - apply andb_prop in H as [H1 H2]. apply bytes_eqb_eq in H1. apply IH in H2. congruence.
  - inversion H; subst. rewrite bytes_eqb_refl. simpl. now apply IH.
Qed.

Lemma strs_eqb_spec : forall a b : list bytes, reflect (a = b) (strs_eqb a b).
Proof.
  intros. destruct (strs_eqb a b) eqn:E; constructor.
  - now apply strs_eqb_eq.
  - intros ->. assert (strs_eqb b b = true) by now apply strs_eqb_eq. congruence.
Qed.

Lemma is_nil_spec : forall A (l : list A), reflect (l = []) (is_nil l).
Proof. destruct l; constructor; congruence. Qed.

(** association lists *)
Section Assoc.
  Context {V : Type}.
  Implicit Types (m : list (bytes * V)) (k : bytes) (v : V).

  Lemma assoc_set_same : forall m k v, assoc k (assoc_set k v m) = Some v.
  Proof.
    induction m as [|[k' v'] m IH]; intros; simpl.
    - now rewrite bytes_eqb_refl.
    - destruct (bytes_eqb k k') eqn:E; simpl; rewrite E; auto.
  Qed.

  Lemma assoc_set_other : forall m k k0 v, k0 <> k -> assoc k0 (assoc_set k v m) = assoc k0 m.
  Proof.
    induction m as [|[k' v'] m IH]; intros; simpl.
    - apply bytes_eqb_neq in H. now rewrite H.
    - destruct (bytes_eqb_spec k k'); simpl.
      + subst. apply bytes_eqb_neq in H. now rewrite H.
      + destruct (bytes_eqb k0 k'); auto.
  Qed.

  Lemma assoc_In : forall m k v, assoc k m = Some v -> In (k, v) m.
  Proof.
    induction m as [|[k' v'] m IH]; simpl; intros; try easy.
    destruct (bytes_eqb_spec k k'); [left|right]; [congruence|auto].
  Qed.

  Lemma assoc_None : forall m k, assoc k m = None <-> ~ In k (List.map fst m).
  Proof.
    induction m as [|[k' v'] m IH]; simpl; intros; try easy.
    destruct (bytes_eqb_spec k k').
    - subst. split; [easy|]. intros H. exfalso. auto.
    - rewrite IH. split; intros H; [intros [C|C]|]; try congruence; auto.
  Qed.

  Lemma In_assoc : forall m k v, NoDup (List.map fst m) -> In (k, v) m -> assoc k m = Some v.
  Proof.
    induction m as [|[k' v'] m IH]; simpl; intros k v ND Hin; try easy.
    inversion ND; subst. destruct Hin as [H|H].
    - inversion H; subst. now rewrite bytes_eqb_refl.
    - destruct (bytes_eqb_spec k k').
      + subst. exfalso. apply H1. change k' with (fst (k', v)). now apply in_map.
      + auto.
  Qed.

  Lemma assoc_set_keys_in : forall m k v x,
    In x (List.map fst (assoc_set k v m)) <-> x = k \/ In x (List.map fst m).
  Proof.
    induction m as [|[k' v'] m IH]; simpl; intros.
    - intuition congruence.
    - destruct (bytes_eqb_spec k k'); simpl.
      + subst. intuition congruence.
      + rewrite IH. intuition congruence.
  Qed.

  Lemma assoc_set_nodup : forall m k v,
    NoDup (List.map fst m) -> NoDup (List.map fst (assoc_set k v m)).
  Proof.
    induction m as [|[k' v'] m IH]; simpl; intros k v ND.
    - constructor; auto.
    - inversion ND; subst. destruct (bytes_eqb_spec k k'); simpl.
      + constructor; auto.
      + constructor; auto. rewrite assoc_set_keys_in. intuition congruence.
  Qed.

  Lemma assoc_set_id : forall m k v, assoc k m = Some v -> assoc_set k v m = m.
  Proof.
    induction m as [|[k' v'] m IH]; simpl; intros; try easy.
    destruct (bytes_eqb_spec k k'); [congruence|]. now rewrite IH.
  Qed.
End Assoc.

(** prefixes *)
Lemma starts_with_spec : forall p s, starts_with p s = true <-> exists t, s = p ++ t.
Proof.
  intros. unfold starts_with. rewrite bytes_eqb_eq. split.
  - intros H. exists (skipn (length p) s). rewrite <- H at 1. now rewrite firstn_skipn.
  - intros [t ->]. rewrite firstn_app, Nat.sub_diag, firstn_all. simpl. now rewrite app_nil_r.
Qed.

Lemma starts_with_app : forall p t, starts_with p (p ++ t) = true.
Proof. intros. apply starts_with_spec. eauto. Qed.

Lemma starts_with_length : forall p s, starts_with p s = true -> length p <= length s.
Proof. intros p s H. apply starts_with_spec in H as [t ->]. rewrite app_length. lia. Qed.

Lemma code_chr : forall n, (n < 256)%N -> code (chr n) = n.
Proof. intros. unfold code, chr. now apply N_ascii_embedding. Qed.

Lemma chr_code : forall c, chr (code c) = c.
Proof. intros. unfold code, chr. apply ascii_N_embedding. Qed.

Lemma code_lt : forall c, (code c < 256)%N.
Proof. intros. unfold code. apply N_ascii_bounded. Qed.

Lemma code_inj : forall a b, code a = code b -> a = b.
Proof. intros a b H. rewrite <- (chr_code a), <- (chr_code b). now rewrite H. Qed.

(** Every byte, for case analyses by computation. *)
Definition all_bytes : list byte := List.map (fun n => chr (N.of_nat n)) (seq 0 256).

Lemma all_bytes_complete : forall c, In c all_bytes.
Proof.
  intros c. unfold all_bytes. apply in_map_iff. exists (N.to_nat (code c)). split.
  - rewrite N2Nat.id. apply chr_code.
  - apply in_seq. pose proof (code_lt c). lia.
Qed.

Lemma forall_bytes : forall P : byte -> bool, forallb P all_bytes = true -> forall c, P c = true.
Proof. intros P H c. rewrite forallb_forall in H. apply H, all_bytes_complete. Qed.

Lemma existsb_false_forall : forall A (f : A -> bool) l,
  existsb f l = false <-> forall x, In x l -> f x = false.
Proof.
  induction l; simpl; split; intros; try easy.
  - apply orb_false_iff in H as [H1 H2]. destruct H0; [congruence|]. now apply IHl.
  - apply orb_false_iff. split; [auto|]. apply IHl. auto.
Qed.

Lemma firstn_add_skipn : forall A (l : list A) n, firstn n l ++ skipn n l = l.
Proof. intros. apply firstn_skipn. Qed.

Lemma nth_app_mid : forall A (a b : list A) x d, nth (length a) (a ++ x :: b) d = x.
Proof. intros. rewrite app_nth2 by lia. now rewrite Nat.sub_diag. Qed.

Lemma skipn_app_exact : forall A (a b : list A), skipn (length a) (a ++ b) = b.
Proof. intros. rewrite skipn_app, skipn_all, Nat.sub_diag. reflexivity. Qed.

Lemma firstn_app_exact : forall A (a b : list A), firstn (length a) (a ++ b) = a.
Proof. intros. rewrite firstn_app, firstn_all, Nat.sub_diag. simpl. now rewrite app_nil_r. Qed.
