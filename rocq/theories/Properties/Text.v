(** Properties C77 and C78: characters, words and numbers. *)
From Coq Require Import NArith ZArith Lia.
From Verif.Model Require Import Base.
From Verif.Spec Require Import TextSpec.
From Verif.Proofs Require Import BaseFacts Numbers.
Local Open Scope list_scope.

Definition mem (l : bytes) (c : byte) : bool := existsb (byte_eqb c) l.
Lemma mem_In l c : mem l c = true <-> In c l.
Proof.
  unfold mem. rewrite existsb_exists. split.
  - intros (x & H & E). apply byte_eqb_eq in E. now subst.
  - intro H. exists c. split; [exact H|apply byte_eqb_refl].
Qed.
Lemma class (f : byte -> bool) l : forallb (fun c => Bool.eqb (f c) (mem l c)) all_bytes = true -> forall c, f c = true <-> In c l.
Proof.
  intros H c. pose proof (forall_bytes (fun c => Bool.eqb (f c) (mem l c)) H c) as E. cbv beta in E.
  apply Bool.eqb_prop in E. rewrite E. apply mem_In.
Qed.

(** The classes the code asks for: exactly these bytes; in particular no byte from
    128 on is white space, a digit or a letter. *)
Theorem C77_character_classes : forall c : byte,
  (isspace c = true <-> In c white_chars) /\
  (isdigit c = true <-> In c digit_chars) /\
  (isalpha c = true <-> In c upper_chars \/ In c lower_chars) /\
  (hi c = true <-> (128 <= code c)%N) /\
  (hi c = true -> isspace c = false /\ isdigit c = false /\ isalpha c = false /\ toupper c = c /\ tolower c = c).
Proof.
  intro c. split; [apply class; reflexivity|]. split; [apply class; reflexivity|]. split.
  { rewrite <- in_app_iff. apply (class isalpha (upper_chars ++ lower_chars)). reflexivity. }
  split; [unfold hi; apply N.leb_le|].
  intro H.
  pose proof (forall_bytes (fun c => implb (hi c) (negb (isspace c) && negb (isdigit c) && negb (isalpha c) && byte_eqb (toupper c) c && byte_eqb (tolower c) c)) eq_refl c) as K.
  cbv beta in K. rewrite H in K. cbn [implb] in K.
  apply andb_prop in K as [K K5]. apply andb_prop in K as [K K4]. apply andb_prop in K as [K K3]. apply andb_prop in K as [K1 K2].
  apply negb_true_iff in K1. apply negb_true_iff in K2. apply negb_true_iff in K3. apply byte_eqb_eq in K4. apply byte_eqb_eq in K5. auto.
Qed.

Lemma letters_len : length lower_chars = 26 /\ length upper_chars = 26.
Proof. split; reflexivity. Qed.
Lemma same_letter_case a b : same_letter a b -> toupper a = b /\ tolower b = a.
Proof.
  intros (i & A & B). assert (L : i < 26) by (rewrite <- (proj1 letters_len); apply nth_error_Some; congruence).
  assert (K : forallb (fun i => byte_eqb (toupper (nth i lower_chars c_nul)) (nth i upper_chars c_nul)
                              && byte_eqb (tolower (nth i upper_chars c_nul)) (nth i lower_chars c_nul)) (seq 0 26) = true) by reflexivity.
  rewrite forallb_forall in K. specialize (K i). rewrite in_seq in K. specialize (K ltac:(lia)).
  rewrite (nth_error_nth _ _ _ A), (nth_error_nth _ _ _ B) in K. apply andb_prop in K as [K1 K2].
  apply byte_eqb_eq in K1. apply byte_eqb_eq in K2. auto.
Qed.
Lemma fixed_points f l : forallb (fun c => mem l c || byte_eqb (f c) c) all_bytes = true -> forall c, ~ In c l -> f c = c.
Proof.
  intros H c N. pose proof (forall_bytes (fun c => mem l c || byte_eqb (f c) c) H c) as K. cbv beta in K.
  apply orb_prop in K as [K|K]; [apply mem_In in K; contradiction|now apply byte_eqb_eq].
Qed.

(** Changing case: letters become the corresponding letter, everything else stays. *)
Theorem C77_case : forall c : byte,
  (In c lower_chars /\ same_letter c (toupper c) \/ ~ In c lower_chars /\ toupper c = c) /\
  (In c upper_chars /\ same_letter (tolower c) c \/ ~ In c upper_chars /\ tolower c = c).
Proof.
  intro c. split.
  - destruct (mem lower_chars c) eqn:E.
    + apply mem_In in E. left. split; [exact E|]. apply In_nth_error in E as (i & E).
      assert (L : i < 26) by (rewrite <- (proj1 letters_len); apply nth_error_Some; congruence).
      destruct (nth_error upper_chars i) as [b|] eqn:B.
      * exists i. split; [exact E|]. now rewrite (proj1 (same_letter_case c b (ex_intro _ i (conj E B)))).
      * apply nth_error_None in B. rewrite (proj2 letters_len) in B. lia.
    + right. assert (N : ~ In c lower_chars) by (rewrite <- mem_In; congruence). split; [exact N|]. revert N. apply (fixed_points toupper). reflexivity.
  - destruct (mem upper_chars c) eqn:E.
    + apply mem_In in E. left. split; [exact E|]. apply In_nth_error in E as (i & E).
      assert (L : i < 26) by (rewrite <- (proj2 letters_len); apply nth_error_Some; congruence).
      destruct (nth_error lower_chars i) as [a|] eqn:A.
      * exists i. split; [|exact E]. now rewrite (proj2 (same_letter_case a c (ex_intro _ i (conj A E)))).
      * apply nth_error_None in A. rewrite (proj1 letters_len) in A. lia.
    + right. assert (N : ~ In c upper_chars) by (rewrite <- mem_In; congruence). split; [exact N|]. revert N. apply (fixed_points tolower). reflexivity.
Qed.

(** Searching in strings. *)
Theorem C77_strings : forall (p s : bytes) (c : byte),
  (starts_with p s = true <-> exists r, s = p ++ r) /\
  (contains p s = true <-> exists a r, s = a ++ p ++ r) /\
  (forall i, find_char c s = Some i <-> exists r, s = firstn i s ++ c :: r /\ length (firstn i s) = i /\ ~ In c (firstn i s)) /\
  (find_char c s = None <-> ~ In c s) /\
  (exists r, s = c_str s ++ r /\ ~ In c_nul (c_str s) /\ (r = [] \/ exists r', r = c_nul :: r')).
Proof.
  intros p s c. split; [apply starts_with_spec|]. split.
  { induction s as [|x s IH]; cbn [contains].
    - rewrite orb_false_r. rewrite starts_with_spec. split.
      + intros (r & E). exists [], r. exact E.
      + intros (a & r & E). exists r. destruct a; [exact E|discriminate].
    - rewrite orb_true_iff, starts_with_spec, IH. split.
      + intros [(r & E)|(a & r & E)]; [exists [], r; exact E|exists (x :: a), r; rewrite E; reflexivity].
      + intros (a & r & E). destruct a as [|y a]; [left; now exists r|]. right. injection E as -> E. now exists a, r. }
  split.
  { induction s as [|x s IH]; intro i; cbn [find_char].
    - split; [discriminate|]. intros (r & E & _). rewrite firstn_nil in E. discriminate.
    - destruct (byte_eqb_spec x c) as [->|N].
      + split.
        * intro E. injection E as <-. exists s. cbn [firstn]. auto.
        * intros (r & E & _ & NI). destruct i as [|i]; [reflexivity|]. cbn [firstn] in NI. destruct NI. now left.
      + split.
        * destruct (find_char c s) as [j|]; [|discriminate]. intro E. injection E as <-. destruct (proj1 (IH j) eq_refl) as (r & E & L & NI).
          exists r. cbn [firstn]. split; [cbn [app]; now rewrite <- E|]. cbn [length]. split; [now rewrite L|].
          intros [H|H]; auto.
        * intros (r & E & L & NI). destruct i as [|i]; cbn [firstn app] in E; [injection E as E _; contradiction|]. injection E as E.
          cbn [firstn length] in L. injection L as L. assert (find_char c s = Some i) as ->; [|reflexivity].
          apply IH. exists r. split; [exact E|]. split; [exact L|]. intro H. apply NI. cbn [firstn]. now right. }
  split.
  { induction s as [|x s IH]; cbn [find_char]; [split; auto|]. destruct (byte_eqb_spec x c) as [->|N].
    - split; [discriminate|]. intro H. destruct H. now left.
    - destruct (find_char c s) as [j|].
      + split; [discriminate|]. intro H. assert (X : Some j = None) by (apply IH; intro; apply H; now right). discriminate.
      + split; [|reflexivity]. intros _ [H|H]; [contradiction|]. now apply (proj1 IH). }
  induction s as [|x s (r & E & N & T)]; cbn [c_str].
  - exists []. cbn. auto.
  - destruct (byte_eqb_spec x c_nul) as [->|NE].
    + exists (c_nul :: s). cbn. split; [reflexivity|]. split; [auto|]. right. now exists s.
    + exists r. cbn [app]. split; [now rewrite <- E|]. split; [|exact T]. intros [H|H]; auto.
Qed.

Example C77_nonvacuous :
  isspace (chr 9) = true /\ isspace (chr 14) = false /\ isspace (chr 160) = false /\
  toupper "z"%char = "Z"%char /\ same_letter "q"%char "Q"%char /\ toupper (chr 228) = chr 228.
Proof. repeat split; try reflexivity. exists 16. split; reflexivity. Qed.

(** Numbers in messages. *)
Lemma digit_nth d : d < 10 -> nth_error digit_chars d = Some (chr (48 + N.of_nat d)).
Proof. intro H. do 10 (destruct d as [|d]; [reflexivity|]). lia. Qed.
Lemma digit_lt d c : nth_error digit_chars d = Some c -> d < 10.
Proof. intro H. change 10 with (length digit_chars). apply nth_error_Some. congruence. Qed.

Lemma dec_written f : forall n acc, (n < 2 ^ N.of_nat f)%N -> exists w, dec_N_aux (S f) n acc = w ++ acc /\ written n w.
Proof.
  induction f as [|f IH]; intros n acc H.
  - assert (n = 0%N) as -> by (cbn in H; lia). exists [chr 48]. split; [reflexivity|]. exact (written_digit 0 (chr 48) eq_refl).
  - remember (S f) as g eqn:Eg. cbn [dec_N_aux]. subst g.
    assert (D : (n mod 10 < 10)%N) by (apply N.mod_lt; discriminate).
    assert (D' : nth_error digit_chars (N.to_nat (n mod 10)) = Some (chr (48 + n mod 10))).
    { rewrite digit_nth by lia. now rewrite N2Nat.id. }
    pose proof (N.div_mod n 10 ltac:(discriminate)) as DM.
    destruct (N.eqb_spec (n / 10) 0) as [E|E].
    + exists [chr (48 + n mod 10)]. split; [reflexivity|].
      replace n with (N.of_nat (N.to_nat (n mod 10))) at 1 by (rewrite N2Nat.id; lia). now constructor.
    + assert (L : (n / 10 < 2 ^ N.of_nat f)%N).
      { rewrite Nat2N.inj_succ, N.pow_succ_r' in H. apply N.div_lt_upper_bound; [discriminate|]. lia. }
      destruct (IH (n / 10)%N (chr (48 + n mod 10) :: acc) L) as (w & E1 & E2). exists (w ++ [chr (48 + n mod 10)]).
      split; [rewrite E1, <- app_assoc; reflexivity|].
      replace n with (10 * (n / 10) + N.of_nat (N.to_nat (n mod 10)))%N at 1 by (rewrite N2Nat.id; lia). now constructor.
Qed.

Lemma written_fun n w : written n w -> forall w', written n w' -> w = w'.
Proof.
  assert (X : forall m w', written m w' ->
    (exists d c, m = N.of_nat d /\ w' = [c] /\ nth_error digit_chars d = Some c) \/
    (exists n v d c, m = (10 * n + N.of_nat d)%N /\ w' = v ++ [c] /\ n <> 0%N /\ written n v /\ nth_error digit_chars d = Some c)).
  { intros m w' []; [left; eauto|right; eauto 9]. }
  induction 1 as [d c D|n w d c NZ W IH D]; intros w' H; pose proof (digit_lt _ _ D) as L;
    apply X in H as [(d' & c' & E & -> & D')|(n' & v & d' & c' & E & -> & NZ' & W' & D')]; pose proof (digit_lt _ _ D') as L'.
  - assert (d' = d) as -> by lia. congruence.
  - exfalso. lia.
  - exfalso. lia.
  - assert (n' = n /\ d' = d) as [-> ->] by lia. f_equal; [now apply IH|congruence].
Qed.

(** Numbers are printed in decimal notation, which is unique; negative ones with a minus sign. *)
Theorem C78_numbers_are_decimal : forall z w,
  dec_Z z = w <->
  (0 <= z)%Z /\ written (Z.to_N z) w \/ (z < 0)%Z /\ exists w', w = bs "-" ++ w' /\ written (Z.to_N (- z)) w'.
Proof.
  assert (D : forall n, written n (dec_N n)).
  { intro n. unfold dec_N. destruct (dec_written (N.to_nat (N.size n)) n []) as (w & E & W); [rewrite N2Nat.id; apply N.size_gt|].
    rewrite E, app_nil_r. exact W. }
  intros z w. unfold dec_Z. destruct (Z.ltb_spec z 0) as [Z|Z].
  - split.
    + intros <-. right. split; [exact Z|]. eexists. split; [reflexivity|apply D].
    + intros [[H _]|[_ (w' & -> & W)]]; [lia|]. cbn. f_equal. exact (written_fun _ _ (D _) _ W).
  - split.
    + intros <-. left. split; [exact Z|apply D].
    + intros [[_ W]|[H _]]; [|lia]. exact (written_fun _ _ (D _) _ W).
Qed.

Example C78_nonvacuous : written 1207 (bs "1207") /\ dec_Z 1207 = bs "1207".
Proof.
  split; [|reflexivity].
  refine (written_more 120 (bs "120") 7 "7"%char _ _ eq_refl); [discriminate|].
  refine (written_more 12 (bs "12") 0 "0"%char _ _ eq_refl); [discriminate|].
  refine (written_more 1 (bs "1") 2 "2"%char _ _ eq_refl); [discriminate|].
  exact (written_digit 1 "1"%char eq_refl).
Qed.

Print Assumptions C77_character_classes.
Print Assumptions C77_case.
Print Assumptions C77_strings.
Print Assumptions C78_numbers_are_decimal.
