(** The language code in a locale name is what stands before the first '_', '.' or '@'. *)
From Verif.Model Require Import Base Language.
From Verif.Spec Require Import LangSpec ManagerSpec.
From Verif.Proofs Require Import BaseFacts LangProofs.
Local Open Scope list_scope.

Definition separator (c : byte) : bool := byte_eqb c c_us || byte_eqb c c_dot || byte_eqb c c_at.
Fixpoint code_of (e : bytes) : bytes :=
  match e with [] => [] | c :: e' => if separator c then [] else c :: code_of e' end.
Fixpoint idx (c : byte) (e : bytes) : nat :=
  match e with [] => 0 | x :: e' => if byte_eqb x c then 0 else S (idx c e') end.
Lemma idx_find c e : (size e < 2 ^ 63)%N -> N.min (of_find (find_char c e)) (size e) = N.of_nat (idx c e).
Proof.
  intro R. assert (H : match find_char c e with Some i => i = idx c e /\ i < length e | None => idx c e = length e end).
  { clear. induction e as [|x e IH]; [reflexivity|]. cbn [find_char idx length]. destruct (byte_eqb x c); [split; [reflexivity|lia]|].
    destruct (find_char c e); [destruct IH; split; lia|lia]. }
  unfold of_find, size in *. destruct (find_char c e) as [i|]; [destruct H; lia|]. rewrite H. change npos with 18446744073709551615%N. lia.
Qed.
Lemma code_first e : firstn (Nat.min (Nat.min (idx c_us e) (idx c_dot e)) (idx c_at e)) e = code_of e.
Proof.
  induction e as [|x e IH]; [reflexivity|]. cbn [idx code_of]. unfold separator.
  destruct (byte_eqb x c_us); [reflexivity|]. destruct (byte_eqb x c_dot); cbn [orb]; [now rewrite Nat.min_0_r|].
  destruct (byte_eqb x c_at); [now rewrite Nat.min_0_r|]. cbn [Nat.min firstn]. now rewrite IH.
Qed.
Lemma from_env_code nd e l : real_string e -> from_env nd e = Ret l ->
  (l = None /\ forall s, In s languages -> ls_language s <> code_of e) \/ (exists s, l = Some s /\ In s languages /\ ls_language s = code_of e).
Proof.
  intros R H. pose proof (from_env_known _ _ _ H) as K. revert H. unfold from_env.
  set (n := N.min (N.min _ _) _).
  assert (E : substr e 0 n = Some (code_of e)).
  { unfold substr. destruct (N.ltb_spec (size e) 0); [lia|]. f_equal. cbn [N.to_nat Pos.to_nat skipn]. rewrite N.sub_0_r.
    rewrite <- code_first. f_equal. pose proof (idx_find c_us e R). pose proof (idx_find c_dot e R). pose proof (idx_find c_at e R). unfold n. lia. }
  rewrite E. cbn [skipn].
  repeat match goal with |- context [match ?x with Some _ => _ | None => _ end] => destruct x end; try discriminate.
  intro H. match type of H with from_spec _ _ ?co ?mo = _ => destruct (from_spec_cases nd (code_of e) co mo) as [[X N]|(u1 & s & u2 & X & T & La & _)] end; rewrite H in X; injection X as ->; [left|right]; eauto.
Qed.
Lemma code_us a x y : code_of (a ++ c_us :: x) = code_of (a ++ c_us :: y).
Proof. induction a as [|c a IH]; [reflexivity|]. cbn [app code_of]. now rewrite IH. Qed.
Lemma country_upper_code t r : country_upper t r -> code_of t = code_of r.
Proof. intros [(_ & ->)|(a & b & b' & c & -> & -> & _)]; [reflexivity|apply code_us]. Qed.
Lemma country_upper_size t r : country_upper t r -> length r = length t.
Proof.
  intros [(_ & ->)|(a & b & b' & c & -> & -> & _ & _ & H & _)]; [reflexivity|]. assert (E : length b = length b') by (clear -H; induction H; cbn [length]; congruence).
  rewrite !app_length. cbn [length]. rewrite !app_length. lia.
Qed.
Lemma same_code nd t r l l' : real_string t -> country_upper t r -> from_env nd t = Ret l -> from_env nd r = Ret l' ->
  (l = None <-> l' = None) /\ get_language l = get_language l'.
Proof.
  intros R C H H'. assert (R' : real_string r) by (unfold real_string, size in *; now rewrite (country_upper_size _ _ C)).
  pose proof (country_upper_code _ _ C) as E.
  destruct (from_env_code nd t l R H) as [(-> & N)|(s & -> & I & Es)], (from_env_code nd r l' R' H') as [(-> & N')|(s' & -> & I' & Es')];
    (split; [split; intro; try reflexivity; try discriminate|]); try reflexivity;
    try (exfalso; apply (N s' I'); congruence); try (exfalso; apply (N' s I); congruence). cbn [get_language]. congruence.
Qed.
