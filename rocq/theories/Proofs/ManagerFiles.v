(** File names, and the set get_languages builds. *)
From Verif.Model Require Import Base Log PluralForms Dictionary IConv Language Stream PoParser Manager.
From Verif.Spec Require Import DictSpec LangSpec ParserSpec ManagerSpec.
From Verif.Proofs Require Import BaseFacts DictProofs LangProofs.
Local Open Scope list_scope.

Lemma letter_isalpha c : isalpha c = true <-> letter c.
Proof.
  unfold isalpha, isupper, islower, letter. rewrite orb_true_iff, !andb_true_iff, !N.leb_le. tauto.
Qed.
Lemma toupper_upper c : letter c -> upper_of c (toupper c).
Proof.
  unfold letter, upper_of, toupper, islower. intro H. destruct ((97 <=? code c) && (code c <=? 122))%N eqn:E.
  - apply andb_true_iff in E. rewrite !N.leb_le in E. left. split; [exact E|].
    destruct E as [E1 E2]. unfold chr, code in *. rewrite N_ascii_embedding by lia. reflexivity.
  - right. apply andb_false_iff in E. rewrite !N.leb_gt in E. split; [lia|reflexivity].
Qed.

Lemma upcase_found strict s : exists b c, s = b ++ c /\ Forall letter b /\ match c with [] => True | x :: _ => ~ letter x end /\
  upcase_country strict true s =
    (if strict && match c with [] => false | x :: _ => hi x end then Ub UbCtype else Ret (List.map toupper b ++ c)).
Proof.
  induction s as [|x s (b & c & E & L & N & U)].
  - exists [], []. cbn [upcase_country List.map app]. rewrite andb_false_r. auto.
  - destruct (isalpha x) eqn:A.
    + exists (x :: b), c. subst s. split; [reflexivity|]. pose proof (proj1 (letter_isalpha x) A) as Lx.
      split; [now constructor|]. split; [exact N|]. cbn [upcase_country]. 
      assert (H : hi x = false). { unfold hi. apply N.leb_gt. unfold letter in Lx. lia. }
      rewrite H, andb_false_r, A. cbn [negb]. rewrite U. now destruct (strict && _).
    + exists [], (x :: s). cbn [app List.map]. split; [reflexivity|]. split; [constructor|].
      split; [intro Lx; apply letter_isalpha in Lx; congruence|]. cbn [upcase_country]. rewrite A. cbn [negb].
      now destruct (strict && hi x).
Qed.
Lemma upcase_upper b : Forall letter b -> Forall2 upper_of b (List.map toupper b).
Proof. induction 1; cbn [List.map]; constructor; [now apply toupper_upper|assumption]. Qed.
Lemma upcase_spec strict t :
  (exists r, upcase_country strict false t = Ret r /\ country_upper t r) \/
  (strict = true /\ upcase_country strict false t = Ub UbCtype /\ stops_at_negative t).
Proof.
  induction t as [|x t IH].
  - left. exists []. split; [reflexivity|]. left. split; [intros []|reflexivity].
  - cbn [upcase_country]. destruct (byte_eqb x c_us) eqn:E.
    + apply byte_eqb_eq in E. subst x. destruct (upcase_found strict t) as (b & c & -> & L & N & U). rewrite U.
      destruct (strict && match c with [] => false | y :: _ => hi y end) eqn:S.
      * right. apply andb_true_iff in S as [-> S]. split; [reflexivity|]. split; [reflexivity|].
        destruct c as [|y c]; [discriminate|]. exists [], b, y, c. apply N.leb_le in S. repeat split; auto.
      * left. eexists. split; [reflexivity|]. right. exists [], b, (List.map toupper b), c.
        repeat split; auto; now apply upcase_upper.
    + destruct IH as [(r & -> & C)|(-> & -> & a & b & y & c & -> & A & L & N & H)].
      * left. eexists. split; [reflexivity|]. assert (X : x <> c_us) by (intros ->; now rewrite byte_eqb_refl in E).
        destruct C as [[N ->]|(a & b & b' & c & -> & -> & A & L & F & N)].
        -- left. split; [|reflexivity]. intros [|]; auto.
        -- right. exists (x :: a), b, b', c. repeat split; auto. intros [|]; auto.
      * right. split; [reflexivity|]. split; [reflexivity|]. exists (x :: a), b, y, c. repeat split; auto.
        intros [->|]; auto. now rewrite byte_eqb_refl in E.
Qed.

Lemma suffix_split (f : bytes) : has_suffix f dot_po = true <-> exists t, f = t ++ dot_po.
Proof.
  unfold has_suffix. change (length dot_po) with 3. destruct (length f <? 3) eqn:L.
  - apply Nat.ltb_lt in L. split; [discriminate|]. intros (t & ->). rewrite app_length in L. change (length dot_po) with 3 in L. lia.
  - split.
    + intro H. apply bytes_eqb_eq in H. exists (firstn (length f - 3) f). rewrite <- H. symmetry. apply firstn_skipn.
    + intros (t & ->). rewrite app_length. change (length dot_po) with 3. replace (length t + 3 - 3) with (length t) by lia.
      rewrite skipn_app, skipn_all, Nat.sub_diag. apply bytes_eqb_eq. reflexivity.
Qed.
Lemma sub3 (t : bytes) : real_string (t ++ dot_po) -> sub64 (size (t ++ dot_po)) 3 = size t.
Proof.
  unfold real_string. intro R. rewrite sub64_exact.
  - rewrite size_app. change (size dot_po) with 3%N. lia.
  - rewrite size_app. change (size dot_po) with 3%N. lia.
  - eapply N.lt_trans; [exact R|]. reflexivity.
Qed.
Lemma stem_substr (t : bytes) : real_string (t ++ dot_po) -> substr (t ++ dot_po) 0 (sub64 (size (t ++ dot_po)) 3) = Some t.
Proof. intro R. apply substr_start. now apply sub3. Qed.

Lemma convert_spec strict s : real_string s -> 3 <= length s ->
  exists t, stripped s t /\ convertFilename2Language strict s = upcase_country strict false t.
Proof.
  intros R L. unfold convertFilename2Language.
  assert (S3 : sub64 (size s) 3 = (size s - 3)%N).
  { apply sub64_exact; [unfold size; lia|]. eapply N.lt_trans; [exact R|reflexivity]. }
  set (a := firstn (length s - 3) s). set (b := skipn (length s - 3) s).
  assert (E : s = a ++ b) by (symmetry; apply firstn_skipn).
  assert (La : length a = length s - 3) by (unfold a; rewrite firstn_length; lia).
  assert (Lb : length b = 3) by (unfold b; rewrite skipn_length; lia).
  assert (Sa : (size s - 3)%N = size a) by (unfold size; lia).
  assert (Sub : substr s (sub64 (size s) 3) 3 = Some b).
  { rewrite S3, Sa. rewrite E at 1. apply substr_to_end. unfold size. lia. }
  rewrite Sub. destruct (bytes_eqb b dot_po) eqn:B.
  - apply bytes_eqb_eq in B. assert (Sub0 : substr s 0 (sub64 (size s) 3) = Some a).
    { rewrite S3, Sa. rewrite E at 1. now apply substr_start. }
    rewrite Sub0. exists a. split; [|reflexivity]. left. rewrite E at 1. now rewrite B.
  - exists s. split; [|reflexivity]. right. split; [|reflexivity]. intros x X.
    assert (b = dot_po); [|subst b; rewrite H in B; now rewrite (proj2 (bytes_eqb_eq _ _) eq_refl) in B].
    unfold b. rewrite X, app_length. change (length (bs ".po")) with 3. replace (length x + 3 - 3) with (length x) by lia.
    now rewrite skipn_app, skipn_all, Nat.sub_diag.
Qed.
Lemma convert_short strict s : length s < 3 -> convertFilename2Language strict s = Exn ExOutOfRange.
Proof.
  destruct s as [|x [|y [|z s]]]; cbn [length]; intro H; try lia; reflexivity.
Qed.

(** ** std::set<Language> *)
Definition ordered (s : list language) : Prop := forall i j a b, i < j -> nth_error s i = Some a -> nth_error s j = Some b -> lang_ltb a b = true.
Fixpoint asc (s : list language) : Prop :=
  match s with [] => True | a :: s' => Forall (fun b => lang_ltb a b = true) s' /\ asc s' end.
Lemma asc_ordered s : asc s -> ordered s.
Proof.
  induction s as [|x s IH]; intros A i j a b L Ha Hb; [destruct i; discriminate|]. destruct A as [F A].
  destruct j as [|j]; [lia|]. cbn [nth_error] in Hb. destruct i as [|i].
  - injection Ha as <-. rewrite Forall_forall in F. apply F. eapply nth_error_In; eauto.
  - eapply (IH A i j); eauto. lia.
Qed.
Lemma insert_in l s : known l -> Forall known s -> forall x, In x (set_insert l s) <-> x = l \/ In x s.
Proof.
  intros K F x. induction s as [|y s IH]; cbn [set_insert]; [cbn; intuition|]. inversion F as [|? ? Ky F']; subst.
  destruct (lang_ltb l y) eqn:A; [cbn [In]; intuition|]. destruct (lang_ltb y l) eqn:B.
  - cbn [In]. rewrite (IH F'). intuition.
  - assert (l = y).
    { apply lang_eqb_eq; auto. destruct (lang_eqb l y) eqn:E; [reflexivity|].
      assert (N : l <> y) by (intro X; apply lang_eqb_eq in X; auto; congruence).
      destruct (lang_ltb_total l y K Ky N); congruence. }
    subst. cbn [In]. intuition.
Qed.
Lemma insert_known l s : known l -> Forall known s -> Forall known (set_insert l s).
Proof.
  intros K F. apply Forall_forall. intros x H. apply insert_in in H; auto. destruct H as [->|H]; [exact K|].
  rewrite Forall_forall in F. auto.
Qed.
Lemma insert_asc l s : known l -> Forall known s -> asc s -> asc (set_insert l s).
Proof.
  intros K F. induction s as [|y s IH]; intro A; cbn [set_insert]; [split; constructor|].
  inversion F as [|? ? Ky F']; subst. destruct A as [Fy A]. destruct (lang_ltb l y) eqn:L1.
  - split; [|split; assumption]. constructor; [exact L1|]. eapply Forall_impl; [|exact Fy]. intros z Hz. eapply lang_ltb_trans; eauto.
  - destruct (lang_ltb y l) eqn:L2; [|split; assumption]. split; [|now apply IH].
    apply Forall_forall. intros z Hz. apply insert_in in Hz; auto. destruct Hz as [->|Hz]; [exact L2|].
    rewrite Forall_forall in Fy. auto.
Qed.

Section Langs.
  Variable cf : config.
  Variable fs : file_system.
  (** the language of a file name, as get_languages sees it *)
  Definition listed (f : bytes) (l : language) : Prop := exists t, f = t ++ dot_po /\ from_env (cf_ndebug cf) t = Ret l.

  Lemma langs_files files : (forall f, In f files -> real_string f) -> forall acc, Forall known acc -> asc acc ->
    exists r, langs_of_files cf files acc = Ret r /\ Forall known r /\ asc r /\
      forall l, In l r <-> In l acc \/ exists f, In f files /\ listed f l.
  Proof.
    induction files as [|f files IH]; intros R acc K A.
    - exists acc. repeat split; auto. intros [H|(f & [] & _)]. exact H.
    - cbn [langs_of_files]. assert (R' : forall f, In f files -> real_string f) by (intros; apply R; now right).
      destruct (has_suffix f dot_po) eqn:S.
      + apply suffix_split in S as (t & ->). rewrite stem_substr by (apply R; now left).
        destruct (from_env_total (cf_ndebug cf) t) as [l E]. rewrite E. cbn [obind].
        pose proof (from_env_known _ _ _ E) as Kl.
        destruct (IH R' (set_insert l acc) (insert_known l acc Kl K) (insert_asc l acc Kl K A)) as (r & Er & Kr & Ar & M).
        exists r. repeat split; auto.
        * intro H. apply M in H as [H|(g & Hg & Lg)].
          -- apply insert_in in H; auto. destruct H as [->|H]; [|now left]. right. exists (t ++ dot_po). split; [now left|]. now exists t.
          -- right. exists g. split; [now right|exact Lg].
        * intros [H|(g & [<-|Hg] & Lg)]; apply M.
          -- left. apply insert_in; auto.
          -- left. apply insert_in; auto. left. destruct Lg as (t' & X & E'). apply app_inv_tail in X. subst t'. congruence.
          -- right. eauto.
      + destruct (IH R' acc K A) as (r & Er & Kr & Ar & M). exists r. repeat split; auto.
        * intro H. apply M in H as [H|(g & Hg & Lg)]; [now left|]. right. exists g. split; [now right|exact Lg].
        * intros [H|(g & [<-|Hg] & (t & X & E'))]; apply M; [now left| |right; exists g; split; [exact Hg|now exists t]].
          assert (Y : has_suffix f dot_po = true) by (apply suffix_split; eauto). congruence.
  Qed.
  Lemma langs_dirs ps : forall acc, Forall known acc -> asc acc ->
    (forall p files, In p ps -> fs_dir fs p = Ret files -> forall f, In f files -> real_string f) ->
    (forall p, In p ps -> exists files, fs_dir fs p = Ret files) ->
    exists r, langs_of_dirs cf fs ps acc = Ret r /\ Forall known r /\ asc r /\
      forall l, In l r <-> In l acc \/ exists p files f, In p ps /\ fs_dir fs p = Ret files /\ In f files /\ listed f l.
  Proof.
    induction ps as [|p ps IH]; intros acc K A R D.
    - exists acc. repeat split; auto. intros [H|(q & files & f & [] & _)]. exact H.
    - cbn [langs_of_dirs]. destruct (D p (or_introl eq_refl)) as [files E]. rewrite E. cbn [obind].
      destruct (langs_files files (R p files (or_introl eq_refl) E) acc K A) as (r1 & -> & K1 & A1 & M1). cbn [obind].
      destruct (IH r1 K1 A1) as (r & -> & Kr & Ar & M).
      { intros q fl Hq. apply R. now right. }
      { intros q Hq. apply D. now right. }
      exists r. repeat split; auto.
      + intro H. apply M in H as [H|(q & fl & f & Hq & X)].
        * apply M1 in H as [H|(f & Hf & Lf)]; [now left|]. right. exists p, files, f. repeat split; auto. now left.
        * right. exists q, fl, f. intuition.
      + intros [H|(q & fl & f & [<-|Hq] & Eq & Hf & Lf)]; apply M.
        * left. apply M1. now left.
        * left. apply M1. right. rewrite E in Eq. injection Eq as <-. eauto.
        * right. exists q, fl, f. auto.
  Qed.
  Lemma langs_fail pre p post e : forall acc,
    (forall q, In q pre -> exists files, fs_dir fs q = Ret files /\ forall f, In f files -> real_string f) ->
    fs_dir fs p = Exn e -> langs_of_dirs cf fs (pre ++ p :: post) acc = Exn e.
  Proof.
    induction pre as [|q pre IH]; intros acc H E; cbn [app langs_of_dirs]; [now rewrite E|].
    destruct (H q (or_introl eq_refl)) as (files & -> & R). cbn [obind].
    assert (G : forall files acc, (forall f, In f files -> real_string f) -> exists r, langs_of_files cf files acc = Ret r).
    { clear. induction files as [|f files IH]; intros acc R; cbn [langs_of_files]; [eauto|]. destruct (has_suffix f dot_po) eqn:S.
      - apply suffix_split in S as (t & ->). rewrite stem_substr by (apply R; now left).
        destruct (from_env_total (cf_ndebug cf) t) as [l ->]. cbn [obind]. apply IH. intros; apply R; now right.
      - apply IH. intros; apply R; now right. }
    destruct (G files acc R) as [r ->]. cbn [obind]. apply IH; [|exact E]. intros; apply H; now right.
  Qed.
End Langs.
