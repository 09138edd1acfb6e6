(** Line numbers as they are printed: different numbers are printed differently. *)
From Coq Require Import NArith ZArith Lia.
From Verif.Model Require Import Base Log IConv Stream PoParser.
From Verif.Spec Require Import DamageSpec.
From Verif.Proofs Require Import BaseFacts.
Local Open Scope list_scope.

Definition digit_value (c : byte) : N := (code c - 48)%N.
Definition digits_value (l : bytes) : N := fold_left (fun v c => (10 * v + digit_value c)%N) l 0%N.

Lemma digit_chr d : (d < 10)%N -> digit_value (chr (48 + d)) = d /\ code (chr (48 + d)) = (48 + d)%N.
Proof. intro H. assert (E : code (chr (48 + d)) = (48 + d)%N) by (apply Ascii.N_ascii_embedding; lia). unfold digit_value. rewrite E. split; lia. Qed.

Lemma dec_aux f : forall n acc, (n < 2 ^ N.of_nat f)%N ->
  exists ds, dec_N_aux (S f) n acc = ds ++ acc /\ digits_value ds = n /\ Forall (fun c => (48 <= code c <= 57)%N) ds.
Proof.
  induction f as [|f IH]; intros n acc H.
  - assert (n = 0%N) as -> by (cbn in H; lia). exists [chr 48]. repeat split. constructor; [vm_compute; split; discriminate|constructor].
  - remember (S f) as g eqn:Eg. cbn [dec_N_aux]. subst g.
    assert (D : (n mod 10 < 10)%N) by (apply N.mod_lt; discriminate). destruct (digit_chr _ D) as [D1 D2].
    destruct (N.eqb_spec (n / 10) 0) as [E|E].
    + exists [chr (48 + n mod 10)]. split; [reflexivity|]. split.
      * unfold digits_value. cbn [fold_left]. rewrite D1. pose proof (N.div_mod n 10). lia.
      * constructor; [rewrite D2; lia|constructor].
    + assert (L : (n / 10 < 2 ^ N.of_nat f)%N).
      { rewrite Nat2N.inj_succ, N.pow_succ_r' in H. apply N.div_lt_upper_bound; [discriminate|]. lia. }
      destruct (IH (n / 10)%N (chr (48 + n mod 10) :: acc) L) as (ds & E1 & E2 & E3). exists (ds ++ [chr (48 + n mod 10)]).
      split; [rewrite E1, <- app_assoc; reflexivity|]. split.
      * unfold digits_value in *. rewrite fold_left_app, E2. cbn [fold_left]. rewrite D1. pose proof (N.div_mod n 10). lia.
      * apply Forall_app. split; [exact E3|]. constructor; [rewrite D2; lia|constructor].
Qed.
Lemma dec_N_value n : digits_value (dec_N n) = n /\ Forall (fun c => (48 <= code c <= 57)%N) (dec_N n).
Proof.
  unfold dec_N. destruct (dec_aux (N.to_nat (N.size n)) n []) as (ds & E1 & E2 & E3).
  - rewrite N2Nat.id. apply N.size_gt.
  - rewrite E1, app_nil_r. auto.
Qed.
Lemma dec_N_inj n m : dec_N n = dec_N m -> n = m.
Proof. intro E. rewrite <- (proj1 (dec_N_value n)), <- (proj1 (dec_N_value m)), E. reflexivity. Qed.
Lemma dec_N_head n : exists c l, dec_N n = c :: l /\ (48 <= code c <= 57)%N.
Proof.
  destruct (dec_N n) as [|c l] eqn:E.
  - exfalso. unfold dec_N in E. cbn [dec_N_aux] in E. destruct (n / 10 =? 0)%N; [discriminate|].
    assert (X : forall f n acc, dec_N_aux f n acc = [] -> acc = []).
    { induction f as [|f IH]; intros k acc X; cbn [dec_N_aux] in X; [exact X|]. destruct (_ =? _)%N; [discriminate|]. apply IH in X. discriminate. }
    apply X in E. discriminate.
  - exists c, l. split; [reflexivity|]. pose proof (proj2 (dec_N_value n)) as F. rewrite E in F. now inversion F.
Qed.
Lemma dec_Z_inj a b : dec_Z a = dec_Z b -> a = b.
Proof.
  unfold dec_Z. destruct (Z.ltb_spec a 0) as [A|A], (Z.ltb_spec b 0) as [B|B]; intro E.
  - injection E as E. apply dec_N_inj in E. lia.
  - destruct (dec_N_head (Z.to_N b)) as (c & l & X & Y). rewrite X in E. injection E as E _. subst c. exfalso. revert Y. vm_compute. intros [Y _]. now apply Y.
  - destruct (dec_N_head (Z.to_N a)) as (c & l & X & Y). rewrite X in E. injection E as E _. subst c. exfalso. revert Y. vm_compute. intros [Y _]. now apply Y.
  - apply dec_N_inj in E. lia.
Qed.
Lemma dec_Z_colon z : ~ In ":"%char (dec_Z z).
Proof.
  assert (N : forall n, ~ In ":"%char (dec_N n)).
  { intros n H. pose proof (proj2 (dec_N_value n)) as F. rewrite Forall_forall in F. apply F in H. revert H. vm_compute. intros [_ H]. now apply H. }
  unfold dec_Z. destruct (z <? 0)%Z; [|apply N]. intros [H|H]; [discriminate|]. exact (N _ H).
Qed.
Lemma split_first {A} (x : A) a b u v : ~ In x a -> ~ In x b -> a ++ x :: u = b ++ x :: v -> a = b /\ u = v.
Proof.
  revert b. induction a as [|y a IH]; intros [|z b] Ha Hb E; cbn [app] in E.
  - injection E as ->. auto.
  - injection E as -> _. destruct Hb. now left.
  - injection E as -> _. destruct Ha. now left.
  - injection E as -> E. destruct (IH b) as [-> ->]; auto; [intro; apply Ha; now right|intro; apply Hb; now right].
Qed.
Lemma mistake_inj fn n n' msg msg' l l' : mistake fn n msg l = mistake fn n' msg' l' -> n = n' /\ msg ++ bs ": " ++ l = msg' ++ bs ": " ++ l'.
Proof.
  unfold mistake, log_error. intro E. injection E as E. apply app_inv_tail in E.
  apply app_inv_head in E. injection E as E. apply (split_first ":"%char) in E as [E1 E2]; try apply dec_Z_colon.
  apply dec_Z_inj in E1. split; [exact E1|]. now injection E2.
Qed.
