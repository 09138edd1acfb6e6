From Verif.Model Require Import Base LanguageTable Language.
From Verif.Spec Require Import LangSpec.
From Verif.Proofs Require Import BaseFacts.
Local Open Scope list_scope.

(** ** match *)
Lemma part_cmp_agree : forall a b,
  exists r, agree a b r /\ part_cmp a b = match r with Same => 0 | OneMissing => 1 | Conflict => 2 end.
Proof.
  intros. unfold part_cmp. destruct (bytes_eqb_spec a b).
  - exists Same. now subst.
  - destruct (is_nil_spec _ a); [exists OneMissing; simpl; auto|].
    destruct (is_nil_spec _ b); [exists OneMissing; simpl; auto|].
    exists Conflict. simpl. auto.
Qed.

Lemma agree_det : forall a b r r', agree a b r -> agree a b r' -> r = r'.
Proof. intros a b [] []; simpl; intuition congruence. Qed.

Lemma agree_sym : forall a b r, agree a b r -> agree b a r.
Proof. intros a b []; simpl; intuition congruence. Qed.

Lemma lang_match_spec : forall a b,
  (get_language a <> get_language b /\ lang_match a b = 0%Z) \/
  (get_language a = get_language b /\
   exists c m, agree (get_country a) (get_country b) c /\ agree (get_modifier a) (get_modifier b) m /\
               lang_match a b = score c m).
Proof.
  intros. unfold lang_match. destruct (bytes_eqb_spec (get_language a) (get_language b)); simpl.
  - right. split; auto.
    destruct (part_cmp_agree (get_country a) (get_country b)) as (c & C1 & ->).
    destruct (part_cmp_agree (get_modifier a) (get_modifier b)) as (m & M1 & ->).
    exists c, m. repeat split; auto. destruct c, m; reflexivity.
  - left. auto.
Qed.

Lemma lang_match_exact : forall a b c m,
  get_language a = get_language b ->
  agree (get_country a) (get_country b) c -> agree (get_modifier a) (get_modifier b) m ->
  lang_match a b = score c m.
Proof.
  intros a b c m L C M. destruct (lang_match_spec a b) as [[N _]|[_ (c' & m' & C' & M' & E)]]; [easy|].
  rewrite E. f_equal; eapply agree_det; eauto.
Qed.

Lemma agree_total : forall a b, exists r, agree a b r.
Proof. intros. destruct (part_cmp_agree a b) as (r & R & _). eauto. Qed.

Lemma score_pos : forall c m, (1 <= score c m <= 9)%Z.
Proof. destruct c, m; simpl; lia. Qed.

Lemma lang_match_sym : forall a b, lang_match a b = lang_match b a.
Proof.
  intros. destruct (lang_match_spec a b) as [[N ->]|[L (c & m & C & M & ->)]].
  - destruct (lang_match_spec b a) as [[_ ->]|[L _]]; congruence.
  - symmetry. apply lang_match_exact; auto using agree_sym.
Qed.

Lemma lang_match_range : forall a b, (0 <= lang_match a b <= 9)%Z.
Proof.
  intros. destruct (lang_match_spec a b) as [[N ->]|[L (c & m & C & M & ->)]]; [lia|].
  pose proof (score_pos c m). lia.
Qed.

Lemma lang_match_zero : forall a b, lang_match a b = 0%Z <-> get_language a <> get_language b.
Proof.
  intros. destruct (lang_match_spec a b) as [[N ->]|[L (c & m & C & M & ->)]].
  - tauto.
  - pose proof (score_pos c m). split; [lia|congruence].
Qed.

Lemma lang_match_nine : forall a b,
  lang_match a b = 9%Z <->
  get_language a = get_language b /\ get_country a = get_country b /\ get_modifier a = get_modifier b.
Proof.
  intros. destruct (lang_match_spec a b) as [[N ->]|[L (c & m & C & M & ->)]].
  - split; [lia|tauto].
  - split.
    + intros H. destruct c, m; simpl in H; try lia. simpl in *. auto.
    + intros (_ & C' & M'). assert (c = Same) by (eapply agree_det; eauto).
      assert (m = Same) by (eapply agree_det; eauto). now subst.
Qed.

(** ** the table *)
Definition eqb_spec (a b : language_spec) : bool := Nat.eqb (ls_addr a) (ls_addr b).

Lemma number_addr : forall l i s, In s (number i l) -> i <= ls_addr s.
Proof.
  induction l as [|[[[[la co] mo] na] lo] l IH]; simpl; intros i s H; [easy|].
  destruct H as [<-|H]; [simpl; lia|]. apply IH in H. lia.
Qed.

Lemma number_inj : forall l i s t,
  In s (number i l) -> In t (number i l) -> ls_addr s = ls_addr t -> s = t.
Proof.
  induction l as [|[[[[la co] mo] na] lo] l IH]; simpl; intros i s t Hs Ht E; [easy|].
  destruct Hs as [<-|Hs]; destruct Ht as [<-|Ht]; auto.
  - apply number_addr in Ht. simpl in *. lia.
  - apply number_addr in Hs. simpl in *. lia.
  - eapply IH; eauto.
Qed.

Lemma languages_inj : forall s t, In s languages -> In t languages -> ls_addr s = ls_addr t -> s = t.
Proof. unfold languages. intros. eapply number_inj; eauto. Qed.

Lemma lang_eqb_eq : forall a b, known a -> known b -> (lang_eqb a b = true <-> a = b).
Proof.
  intros [a|] [b|] Ka Kb; simpl in *; try (split; congruence).
  rewrite Nat.eqb_eq. split; [intros; f_equal; now apply languages_inj | congruence].
Qed.

Lemma number_from : forall l i s, In s (number i l) ->
  exists la co mo na lo, In (la, co, mo, na, lo) l /\ ls_language s = bs la /\ ls_country s = bso co /\
    ls_modifier s = bso mo /\ ls_name s = bs na /\ ls_localized s = bso lo.
Proof.
  induction l as [|[[[[la co] mo] na] lo] l IH]; simpl; intros i s H; [easy|]. destruct H as [<-|H].
  - exists la, co, mo, na, lo. simpl. auto 10.
  - destruct (IH _ _ H) as (la' & co' & mo' & na' & lo' & H1 & H2). exists la', co', mo', na', lo'. auto.
Qed.
Lemma languages_from : forall s, In s languages ->
  exists la co mo na lo, In (la, co, mo, na, lo) raw_languages /\ ls_language s = bs la /\ ls_country s = bso co /\
    ls_modifier s = bso mo /\ ls_name s = bs na /\ ls_localized s = bso lo.
Proof. unfold languages. intros s. apply number_from. Qed.

Local Opaque languages.

(** ** from_spec *)
Lemma codes_no_nul : forall s, In s languages -> c_str (ls_language s) = ls_language s.
Proof.
  intros s H. apply bytes_eqb_eq. revert s H.
  apply (proj1 (forallb_forall (fun s => bytes_eqb (c_str (ls_language s)) (ls_language s)) languages)).
  vm_compute. reflexivity.
Qed.

(** names *)
Lemma languages_named : forall s, In s languages ->
  get_language (Some s) <> [] /\ get_name (Some s) <> [] /\ get_localized_name (Some s) <> [].
Proof.
  assert (H : forall s, In s languages ->
    negb (is_nil (get_language (Some s))) && negb (is_nil (get_name (Some s))) && negb (is_nil (get_localized_name (Some s))) = true).
  { apply (proj1 (forallb_forall _ languages)). vm_compute. reflexivity. }
  intros s Hs. specialize (H s Hs). apply andb_true_iff in H as [H H3]. apply andb_true_iff in H as [H1 H2].
  repeat split; intro E; rewrite E in *; discriminate.
Qed.
Lemma languages_from_table : forall s, In s languages ->
  exists la co mo na lo, In (la, co, mo, na, lo) raw_languages /\ get_language (Some s) = bs la /\
    get_country (Some s) = match co with Some c => bs c | None => [] end /\
    get_modifier (Some s) = match mo with Some m => bs m | None => [] end /\
    get_name (Some s) = bs na /\ get_localized_name (Some s) = match lo with Some n => bs n | None => bs na end.
Proof.
  intros s H. apply languages_from in H as (la & co & mo & na & lo & H1 & H2 & H3 & H4 & H5 & H6).
  exists la, co, mo, na, lo. unfold get_language, get_country, get_modifier, get_localized_name, get_name.
  rewrite H2, H3, H4, H5, H6. split; [exact H1|]. destruct co, mo, lo; repeat split.
Qed.

Definition best_of (tmp : language) (l : list language_spec) (r : option language_spec * Z) : Prop :=
  match fst r with
  | None => snd r = 0%Z /\ forall x, In x l -> lang_match (Some x) tmp = 0%Z
  | Some b => exists l1 l2, l = l1 ++ b :: l2 /\ snd r = lang_match (Some b) tmp /\
                (forall x, In x l1 -> (lang_match (Some x) tmp < lang_match (Some b) tmp)%Z) /\
                (forall x, In x l2 -> (lang_match (Some x) tmp <= lang_match (Some b) tmp)%Z)
  end.

Lemma best_step_ok : forall tmp l r x,
  best_of tmp l r -> best_of tmp (l ++ [x]) (best_step tmp r x).
Proof.
  intros tmp l [[b|] z] x H; unfold best_of in *; unfold best_step; simpl in *.
  - destruct H as (l1 & l2 & -> & -> & H1 & H2).
    destruct (Z.ltb_spec (lang_match (Some b) tmp) (lang_match (Some x) tmp)); simpl.
    + exists (l1 ++ b :: l2), []. repeat split; auto; [|easy].
      intros y Hy. apply in_app_iff in Hy as [Hy|[<-|Hy]]; auto.
      * specialize (H1 _ Hy). lia.
      * specialize (H2 _ Hy). lia.
    + exists l1, (l2 ++ [x]). rewrite <- app_assoc. repeat split; auto.
      intros y Hy. apply in_app_iff in Hy as [Hy|[<-|[]]]; auto.
  - destruct H as [-> H]. destruct (Z.ltb_spec 0 (lang_match (Some x) tmp)); simpl.
    + exists l, []. repeat split; auto; [|easy]. intros y Hy. rewrite (H _ Hy). lia.
    + split; auto. intros y Hy. apply in_app_iff in Hy as [Hy|[<-|[]]]; auto.
      pose proof (lang_match_range (Some x) tmp). lia.
Qed.

Lemma best_fold_ok : forall tmp l2 l1 r,
  best_of tmp l1 r -> best_of tmp (l1 ++ l2) (fold_left (best_step tmp) l2 r).
Proof.
  induction l2 as [|x l2 IH]; intros l1 r H; simpl.
  - now rewrite app_nil_r.
  - change (x :: l2) with ([x] ++ l2). rewrite app_assoc. apply IH. now apply best_step_ok.
Qed.

Lemma best_of_none : forall tmp, best_of tmp [] (None, 0%Z).
Proof. intros. unfold best_of. simpl. split; auto. easy. Qed.

Lemma filter_code_In : forall la s,
  In s (List.filter (fun s => bytes_eqb (ls_language s) la) languages) <->
  In s languages /\ ls_language s = la.
Proof. intros. rewrite filter_In, bytes_eqb_eq. tauto. Qed.

Lemma filter_split : forall A (f : A -> bool) l l1 b l2,
  List.filter f l = l1 ++ b :: l2 ->
  exists m1 m2, l = m1 ++ b :: m2 /\ List.filter f m1 = l1 /\ List.filter f m2 = l2 /\ f b = true.
Proof.
  induction l as [|x l IH]; simpl; intros l1 b l2 H.
  - destruct l1; discriminate.
  - destruct (f x) eqn:F.
    + destruct l1 as [|y l1]; simpl in H; inversion H; subst.
      * exists [], l. auto.
      * destruct (IH _ _ _ H2) as (m1 & m2 & -> & <- & <- & ?). exists (y :: m1), m2. simpl. rewrite F. auto.
    + destruct (IH _ _ _ H) as (m1 & m2 & -> & <- & <- & ?). exists (x :: m1), m2. simpl. rewrite F. auto.
Qed.

Lemma from_spec_cases : forall ndebug la co mo,
  (from_spec ndebug la co mo = Ret None /\ forall s, In s languages -> ls_language s <> la) \/
  (exists l1 s l2, from_spec ndebug la co mo = Ret (Some s) /\ languages = l1 ++ s :: l2 /\ ls_language s = la /\
    (forall x, In x l1 -> ls_language x = la ->
       (lang_match (Some x) (asked la (c_str co) (c_str mo)) < lang_match (Some s) (asked la (c_str co) (c_str mo)))%Z) /\
    (forall x, In x l2 -> ls_language x = la ->
       (lang_match (Some x) (asked la (c_str co) (c_str mo)) <= lang_match (Some s) (asked la (c_str co) (c_str mo)))%Z)).
Proof.
  intros. unfold from_spec. pose proof (filter_code_In la) as FI.
  set (lst := List.filter (fun s => bytes_eqb (ls_language s) la) languages) in *.
  destruct lst as [|x0 lst'] eqn:E.
  - left. split; auto. intros s Hs Hc. apply (proj2 (FI s)). auto.
  - right. rewrite <- E in *.
    assert (Hla : c_str la = la).
    { destruct (proj1 (FI x0)) as [H1 H2]; [rewrite E; now left|]. rewrite <- H2. now apply codes_no_nul. }
    rewrite Hla. fold (asked la (c_str co) (c_str mo)).
    pose proof (best_fold_ok (asked la (c_str co) (c_str mo)) lst [] _ (best_of_none _)) as B. simpl app in B.
    destruct (fold_left _ lst (None, 0%Z)) as [[b|] z]; unfold best_of in B; cbn [fst snd] in *.
    + destruct B as (l1 & l2 & B1 & B2 & B3 & B4).
      unfold lst in B1. apply filter_split in B1 as (m1 & m2 & B1 & M1 & M2 & Mb).
      exists m1, b, m2. repeat split; auto.
      * now apply bytes_eqb_eq.
      * intros x Hx Hc. apply B3. rewrite <- M1. apply filter_In. split; auto. now apply bytes_eqb_eq.
      * intros x Hx Hc. apply B4. rewrite <- M2. apply filter_In. split; auto. now apply bytes_eqb_eq.
    + exfalso. destruct B as [_ B]. specialize (B x0). rewrite E in B. specialize (B (or_introl eq_refl)).
      apply (proj1 (lang_match_zero _ _)) in B. apply B. simpl. destruct (proj1 (FI x0)) as [_ Q]; [rewrite E; now left|exact Q].
Qed.

Lemma from_spec_known : forall nd la co mo l, from_spec nd la co mo = Ret l -> known l.
Proof.
  intros nd la co mo l H. destruct (from_spec_cases nd la co mo) as [[E _]|(l1 & s & l2 & E & T & _)];
    rewrite E in H; inversion H; subst; simpl; auto. rewrite T. apply in_app_iff. right. now left.
Qed.

Lemma from_spec_total : forall nd la co mo, exists l, from_spec nd la co mo = Ret l.
Proof. intros. destruct (from_spec_cases nd la co mo) as [[E _]|(l1 & s & l2 & E & _)]; eauto. Qed.

(** ** from_env *)
Lemma find_char_none : forall c s, ~ In c s -> find_char c s = None.
Proof.
  induction s as [|x s IH]; simpl; intros H; auto.
  destruct (byte_eqb_spec x c); [exfalso; auto|]. rewrite IH; auto.
Qed.

Lemma find_char_app : forall c a b, ~ In c a -> find_char c (a ++ c :: b) = Some (length a).
Proof.
  induction a as [|x a IH]; simpl; intros b H.
  - now rewrite byte_eqb_refl.
  - destruct (byte_eqb_spec x c); [exfalso; auto|]. rewrite IH; auto.
Qed.

Lemma find_char_lt : forall c s i, find_char c s = Some i -> i < length s.
Proof.
  induction s as [|x s IH]; simpl; intros i H; [discriminate|].
  destruct (byte_eqb x c); [inversion H; lia|]. destruct (find_char c s); [|discriminate].
  inversion H; subst. specialize (IH _ eq_refl). lia.
Qed.

Lemma find_char_skip : forall c a b, ~ In c a ->
  find_char c (a ++ b) = option_map (fun i => length a + i) (find_char c b).
Proof.
  induction a as [|x a IH]; simpl; intros b H.
  - now destruct (find_char c b).
  - destruct (byte_eqb_spec x c); [exfalso; auto|]. rewrite IH by auto. now destruct (find_char c b).
Qed.

Lemma substr_some : forall s pos n, (pos <= size s)%N -> exists r, substr s pos n = Some r.
Proof. intros. unfold substr. destruct (N.ltb_spec (size s) pos); [lia|eauto]. Qed.

Lemma from_env_total : forall nd env, exists l, from_env nd env = Ret l.
Proof.
  intros. unfold from_env.
  set (ln := of_find _). set (dt := of_find (find_char c_dot env)). set (at_ := of_find (find_char c_at env)).
  destruct (substr_some env 0 (N.min (N.min ln dt) at_)) as [la ->]; [lia|].
  assert (X : forall p q, (exists r, (if (negb (p =? npos) && (p + 1 <? size env))%N
                                then substr env (p + 1) q else Some []) = Some r)).
  { intros. destruct (_ && _) eqn:E; eauto. apply andb_prop in E as [_ E]. apply N.ltb_lt in E.
    apply substr_some. lia. }
  destruct (X ln (if (N.min dt at_ =? npos)%N then npos else sub64 (N.min dt at_) (ln + 1))) as [co ->].
  destruct (X dt (if (at_ =? npos)%N then npos else sub64 at_ (dt + 1))) as [cs ->].
  destruct (X at_ npos) as [mo ->].
  apply from_spec_total.
Qed.

Lemma from_env_known : forall nd env l, from_env nd env = Ret l -> known l.
Proof.
  intros nd env l. unfold from_env.
  repeat match goal with |- context [match ?x with Some _ => _ | None => _ end] => destruct x end;
    try discriminate; apply from_spec_known.
Qed.

Lemma substr_mid : forall a b c n,
  n = size b -> substr (a ++ b ++ c) (size a) n = Some b.
Proof.
  intros a b c n ->. unfold substr, size. rewrite !app_length.
  destruct (N.ltb_spec (N.of_nat (length a + (length b + length c))) (N.of_nat (length a))); [lia|].
  f_equal. rewrite Nat2N.id, skipn_app_exact.
  replace (N.to_nat _) with (length b) by lia. apply firstn_app_exact.
Qed.

Lemma substr_to_end : forall a b n, (size b <= n)%N -> substr (a ++ b) (size a) n = Some b.
Proof.
  intros a b n H. unfold substr, size in *. rewrite !app_length.
  destruct (N.ltb_spec (N.of_nat (length a + length b)) (N.of_nat (length a))); [lia|].
  f_equal. rewrite Nat2N.id, skipn_app_exact.
  replace (N.to_nat _) with (length b) by lia. apply firstn_all.
Qed.

Lemma substr_start : forall b c n, n = size b -> substr (b ++ c) 0 n = Some b.
Proof. intros. apply (substr_mid [] b c n H). Qed.

Definition opt_part (c : byte) (o : option bytes) : bytes :=
  match o with Some x => c :: x | None => [] end.

Lemma c_us_dot : c_us <> c_dot. Proof. discriminate. Qed.

Lemma find_opt : forall c o rest,
  match o with Some _ => find_char c (opt_part c o ++ rest) = Some 0 | None => True end.
Proof. intros c [x|] rest; auto. simpl. now rewrite byte_eqb_refl. Qed.

Lemma size_app : forall a b, size (a ++ b) = (size a + size b)%N.
Proof. intros. unfold size. rewrite app_length. lia. Qed.
Lemma size_cons : forall c a, size (c :: a) = (1 + size a)%N.
Proof. intros. unfold size. simpl length. lia. Qed.

Lemma sub64_exact : forall a b, (b <= a)%N -> (a < size_t_mod)%N -> sub64 a b = (a - b)%N.
Proof.
  intros a b H L. unfold sub64. replace (a + size_t_mod - b)%N with ((a - b) + 1 * size_t_mod)%N by lia.
  rewrite N.mod_add by (unfold size_t_mod; lia). apply N.mod_small. lia.
Qed.

(** The positions of the separators in a locale name. *)
Lemma from_env_split : forall nd (la : bytes) (co cs mo : option bytes),
  ~ In c_us la -> ~ In c_dot la -> ~ In c_at la ->
  ~ In c_dot (given co) -> ~ In c_at (given co) -> ~ In c_at (given cs) ->
  (co = None -> ~ In c_us (given cs) /\ ~ In c_us (given mo)) ->
  real_string (locale_name la co cs mo) ->
  from_env nd (locale_name la co cs mo) = from_spec nd la (given co) (given mo).
Proof.
  intros nd la co cs mo U1 D1 A1 D2 A2 A3 NC R.
  set (env := locale_name la co cs mo) in *.
  assert (Henv : env = la ++ opt_part c_us co ++ opt_part c_dot cs ++ opt_part c_at mo) by reflexivity.
  pose proof R as R'. unfold real_string in R'. rewrite Henv in R'. rewrite !size_app in R'.
  assert (NP : npos = (2 ^ 64 - 1)%N) by reflexivity.
  assert (SM : size_t_mod = (2 ^ 64)%N) by reflexivity.
  set (nU := size la).
  set (nD := (size la + size (opt_part c_us co))%N).
  set (nA := (size la + size (opt_part c_us co) + size (opt_part c_dot cs))%N).
  (* first underscore *)
  assert (FU : of_find (find_char c_us env) = match co with Some _ => nU | None => npos end).
  { rewrite Henv, find_char_skip by auto. destruct co as [x|].
    - change (opt_part c_us (Some x)) with (c_us :: x). simpl.
      unfold nU, size; lia.
    - destruct (NC eq_refl) as [N1 N2]. simpl app. rewrite find_char_none; auto.
      intros Hin. apply in_app_iff in Hin as [Hin|Hin].
      + destruct cs as [y|]; [|easy]. destruct Hin as [Hin|Hin]; [discriminate|easy].
      + destruct mo as [y|]; [|easy]. destruct Hin as [Hin|Hin]; [discriminate|easy]. }
  (* first dot, when it is the codeset's; otherwise at or beyond the modifier *)
  assert (FD : (cs <> None /\ of_find (find_char c_dot env) = nD) \/
               (cs = None /\ (of_find (find_char c_dot env) = npos \/
                   exists k, of_find (find_char c_dot env) = (nA + k)%N /\ (nA + k < size env)%N /\ mo <> None))).
  { assert (Q : of_find (find_char c_dot env) = of_find (find_char c_dot (la ++ opt_part c_us co ++ opt_part c_dot cs ++ opt_part c_at mo))) by now rewrite <- Henv.
    rewrite Q; clear Q. rewrite find_char_skip by auto.
    assert (NU : ~ In c_dot (opt_part c_us co)).
    { destruct co as [x|]; [|easy]. intros [Hin|Hin]; [discriminate|easy]. }
    rewrite find_char_skip by auto.
    destruct cs as [y|].
    - left. split; [discriminate|]. simpl. unfold nD, size; lia.
    - right. split; auto. simpl app. destruct (find_char c_dot (opt_part c_at mo)) as [k|] eqn:E.
      + right. exists (N.of_nat k). apply find_char_lt in E. rewrite Henv, !size_app. subst nA nD nU.
        cbn [option_map of_find opt_part app length] in *. unfold size in *. cbn [length] in *.
        repeat split; [lia|lia|]. destruct mo; [discriminate|simpl in E; lia].
      + left. reflexivity. }
  assert (FA : of_find (find_char c_at env) = match mo with Some _ => nA | None => npos end).
  { rewrite Henv. rewrite find_char_skip by auto.
    rewrite find_char_skip by (destruct co as [x|]; [|easy]; intros [Hin|Hin]; [discriminate|easy]).
    rewrite find_char_skip by (destruct cs as [x|]; [|easy]; intros [Hin|Hin]; [discriminate|easy]).
    destruct mo as [x|]; simpl; [|reflexivity]. unfold nA, size; lia. }
  assert (Senv : size env = (nA + size (opt_part c_at mo))%N) by (rewrite Henv, !size_app; unfold nA; lia).
  assert (FM : N.min (of_find (find_char c_dot env)) (of_find (find_char c_at env)) =
               match cs, mo with None, None => npos | _, _ => nD end).
  { rewrite FA. destruct FD as [[C ->]|[-> [->|(k & -> & K & M)]]].
    - destruct cs; [|easy]. destruct mo; unfold nD, nA in *; lia.
    - destruct mo; unfold nD, nA in *; simpl size in *; change (size []) with 0%N; lia.
    - destruct mo; [|easy]. unfold nD, nA in *. change (size (opt_part c_dot None)) with 0%N. lia. }
  set (rest1 := opt_part c_us co ++ opt_part c_dot cs ++ opt_part c_at mo) in *.
  (* language *)
  assert (L : substr env 0 (N.min (N.min (of_find (find_char c_us env)) (of_find (find_char c_dot env)))
                                  (of_find (find_char c_at env))) = Some la).
  { rewrite <- N.min_assoc, FM, FU. rewrite Henv.
    destruct co as [x|].
    - apply substr_start. destruct cs, mo; unfold nU, nD in *; lia.
    - unfold nD. change (size (opt_part c_us None)) with 0%N. rewrite N.add_0_r.
      destruct cs, mo; try (apply substr_start; lia).
      unfold rest1. simpl. rewrite app_nil_r. apply (substr_to_end [] la). lia. }
  (* country *)
  assert (C : (if (negb (of_find (find_char c_us env) =? npos) && (of_find (find_char c_us env) + 1 <? size env))%N
               then substr env (of_find (find_char c_us env) + 1)
                      (if (N.min (of_find (find_char c_dot env)) (of_find (find_char c_at env)) =? npos)%N then npos
                       else sub64 (N.min (of_find (find_char c_dot env)) (of_find (find_char c_at env)))
                                  (of_find (find_char c_us env) + 1))
               else Some []) = Some (given co)).
  { rewrite FM, FU. destruct co as [x|]; [|rewrite N.eqb_refl; reflexivity].
    destruct (N.eqb_spec nU npos); [unfold nU in *; lia|]. simpl negb. cbn [andb].
    assert (SC : size (opt_part c_us (Some x)) = (1 + size x)%N) by (simpl; apply size_cons).
    destruct (N.ltb_spec (nU + 1) (size env)).
    - rewrite Henv. unfold rest1. change (opt_part c_us (Some x)) with ([c_us] ++ x).
      rewrite <- app_assoc. rewrite app_assoc.
      replace (nU + 1)%N with (size (la ++ [c_us])) by (rewrite size_app; reflexivity).
      assert (X : forall n, n = size x -> substr ((la ++ [c_us]) ++ x ++ opt_part c_dot cs ++ opt_part c_at mo)
                  (size (la ++ [c_us])) n = Some x) by (intros; apply substr_mid; auto).
      assert (Sn : (size (la ++ [c_us]) = size la + 1)%N) by (rewrite size_app; reflexivity).
      destruct cs as [y|], mo as [z|];
        try (destruct (N.eqb_spec nD npos); [unfold nD in *; lia|]; apply X;
             rewrite sub64_exact; unfold nD in *; lia).
      rewrite N.eqb_refl. simpl. rewrite app_nil_r. apply substr_to_end. lia.
    - simpl. destruct x; auto. exfalso. rewrite size_cons in SC. unfold nU, nA in *. lia. }
  (* codeset: any value *)
  assert (K : exists r, (if (negb (of_find (find_char c_dot env) =? npos) && (of_find (find_char c_dot env) + 1 <? size env))%N
               then substr env (of_find (find_char c_dot env) + 1)
                      (if (of_find (find_char c_at env) =? npos)%N then npos
                       else sub64 (of_find (find_char c_at env)) (of_find (find_char c_dot env) + 1))
               else Some []) = Some r).
  { clear C. destruct (_ && _) eqn:E; eauto. apply andb_prop in E as [_ E]. apply N.ltb_lt in E. apply substr_some. lia. }
  destruct K as [kr K].
  (* modifier *)
  assert (Mo : (if (negb (of_find (find_char c_at env) =? npos) && (of_find (find_char c_at env) + 1 <? size env))%N
               then substr env (of_find (find_char c_at env) + 1) npos else Some []) = Some (given mo)).
  { rewrite FA. destruct mo as [z|]; [|rewrite N.eqb_refl; reflexivity].
    assert (SC : size (opt_part c_at (Some z)) = (1 + size z)%N) by (simpl; apply size_cons).
    destruct (N.eqb_spec nA npos); [unfold nA in *; lia|]. simpl negb. cbn [andb].
    destruct (N.ltb_spec (nA + 1) (size env)).
    - rewrite Henv. unfold rest1. change (opt_part c_at (Some z)) with ([c_at] ++ z).
      assert (Sz : (size z <= npos)%N) by lia.
      rewrite !app_assoc.
      replace (nA + 1)%N with (size (((la ++ opt_part c_us co) ++ opt_part c_dot cs) ++ [c_at]))
        by (rewrite !size_app; unfold nA; reflexivity).
      apply substr_to_end. exact Sz.
    - simpl. destruct z; auto. exfalso. rewrite size_cons in SC. lia. }
  unfold from_env. rewrite L, C, K, Mo. reflexivity.
Qed.

(** An underscore that occurs only in the codeset or modifier is taken for the
    country separator: the size_t subtraction wraps around. *)
Lemma sub64_wrap : forall a b, (a < b)%N -> (b <= size_t_mod)%N -> sub64 a b = (a + size_t_mod - b)%N.
Proof. intros a b H L. unfold sub64. apply N.mod_small. lia. Qed.

Lemma from_env_stray_underscore : forall nd (la a b : bytes) (sep : byte),
  sep = c_at \/ (sep = c_dot /\ ~ In c_at a /\ ~ In c_at b) ->
  ~ In c_us la -> ~ In c_dot la -> ~ In c_at la -> ~ In c_us a -> b <> [] ->
  real_string (la ++ sep :: a ++ c_us :: b) ->
  from_env nd (la ++ sep :: a ++ c_us :: b) =
  from_spec nd la b (if byte_eqb sep c_at then a ++ c_us :: b else []).
Proof.
  intros nd la a b sep Hs U1 D1 A1 U2 NB R.
  set (env := la ++ sep :: a ++ c_us :: b) in *.
  assert (NP : npos = (2 ^ 64 - 1)%N) by reflexivity.
  assert (SM : size_t_mod = (2 ^ 64)%N) by reflexivity.
  assert (Sz : size env = (size la + 1 + size a + 1 + size b)%N).
  { unfold env. rewrite size_app, size_cons, size_app, size_cons. lia. }
  unfold real_string in R.
  assert (NBz : (0 < size b)%N) by (destruct b; [easy|rewrite size_cons; lia]).
  assert (FU : of_find (find_char c_us env) = (size la + 1 + size a)%N).
  { unfold env. change (la ++ sep :: a ++ c_us :: b) with (la ++ (sep :: a) ++ c_us :: b).
    rewrite app_assoc. rewrite find_char_app.
    - simpl. unfold size. rewrite app_length. simpl length. lia.
    - intros Hin. apply in_app_iff in Hin as [Hin|[Hin|Hin]]; auto.
      destruct Hs as [->|[-> _]]; discriminate. }
  assert (FM : N.min (of_find (find_char c_dot env)) (of_find (find_char c_at env)) = size la).
  { destruct Hs as [->|[-> [N1 N2]]].
    - assert (of_find (find_char c_at env) = size la).
      { unfold env. rewrite find_char_app by auto. reflexivity. }
      assert (size la <= of_find (find_char c_dot env))%N; [|lia].
      unfold env. rewrite find_char_skip by auto. destruct (find_char c_dot _); simpl; unfold size in *; lia.
    - assert (of_find (find_char c_dot env) = size la).
      { unfold env. rewrite find_char_app by auto. reflexivity. }
      assert (of_find (find_char c_at env) = npos); [|lia].
      unfold env. rewrite find_char_none; auto. intros Hin. apply in_app_iff in Hin as [Hin|[Hin|Hin]]; auto.
      + discriminate.
      + apply in_app_iff in Hin as [Hin|[Hin|Hin]]; auto. discriminate. }
  assert (L : substr env 0 (N.min (N.min (of_find (find_char c_us env)) (of_find (find_char c_dot env)))
                                  (of_find (find_char c_at env))) = Some la).
  { rewrite <- N.min_assoc, FM, FU. apply substr_start. lia. }
  assert (C : (if (negb (of_find (find_char c_us env) =? npos) && (of_find (find_char c_us env) + 1 <? size env))%N
               then substr env (of_find (find_char c_us env) + 1)
                      (if (N.min (of_find (find_char c_dot env)) (of_find (find_char c_at env)) =? npos)%N then npos
                       else sub64 (N.min (of_find (find_char c_dot env)) (of_find (find_char c_at env)))
                                  (of_find (find_char c_us env) + 1))
               else Some []) = Some b).
  { rewrite FM, FU. destruct (N.eqb_spec (size la + 1 + size a) npos); [lia|]. cbn [negb andb].
    destruct (N.ltb_spec (size la + 1 + size a + 1) (size env)); [|lia].
    destruct (N.eqb_spec (size la) npos); [lia|]. rewrite sub64_wrap by lia.
    assert (E : env = (la ++ sep :: a ++ [c_us]) ++ b) by (unfold env; repeat (rewrite <- app_assoc; simpl); reflexivity).
    assert (Sx : (size la + 1 + size a + 1)%N = size (la ++ sep :: a ++ [c_us])).
    { rewrite size_app, size_cons, size_app. change (size [c_us]) with 1%N. lia. }
    rewrite E at 1. rewrite Sx. apply substr_to_end. lia. }
  assert (K : exists r, (if (negb (of_find (find_char c_dot env) =? npos) && (of_find (find_char c_dot env) + 1 <? size env))%N
               then substr env (of_find (find_char c_dot env) + 1)
                      (if (of_find (find_char c_at env) =? npos)%N then npos
                       else sub64 (of_find (find_char c_at env)) (of_find (find_char c_dot env) + 1))
               else Some []) = Some r).
  { clear C. destruct (_ && _) eqn:E; eauto. apply andb_prop in E as [_ E]. apply N.ltb_lt in E. apply substr_some. lia. }
  destruct K as [kr K].
  assert (Mo : (if (negb (of_find (find_char c_at env) =? npos) && (of_find (find_char c_at env) + 1 <? size env))%N
               then substr env (of_find (find_char c_at env) + 1) npos else Some [])
               = Some (if byte_eqb sep c_at then a ++ c_us :: b else [])).
  { destruct Hs as [->|[-> [N1 N2]]].
    - rewrite byte_eqb_refl. assert (FA : of_find (find_char c_at env) = size la).
      { unfold env. rewrite find_char_app by auto. reflexivity. }
      rewrite FA. destruct (N.eqb_spec (size la) npos); [lia|]. cbn [negb andb].
      destruct (N.ltb_spec (size la + 1) (size env)); [|lia].
      assert (E : env = (la ++ [c_at]) ++ a ++ c_us :: b) by (unfold env; rewrite <- app_assoc; reflexivity).
      assert (Sx : (size la + 1)%N = size (la ++ [c_at])) by (rewrite size_app; reflexivity).
      rewrite E at 1. rewrite Sx. apply substr_to_end. rewrite size_app, size_cons. lia.
    - assert (find_char c_at env = None) as ->; [|reflexivity].
      apply find_char_none. unfold env. intros Hin. apply in_app_iff in Hin as [Hin|[Hin|Hin]]; auto.
      + discriminate.
      + apply in_app_iff in Hin as [Hin|[Hin|Hin]]; auto. discriminate. }
  unfold from_env. rewrite L, C, K, Mo. reflexivity.
Qed.

(** ** round trips, by a sweep over the table *)
Definition lang_is (o : outcome language) (s : language_spec) : bool :=
  match o with Ret (Some t) => Nat.eqb (ls_addr t) (ls_addr s) | _ => false end.

Lemma lang_is_eq : forall nd la co mo s, In s languages ->
  lang_is (from_spec nd la co mo) s = true -> from_spec nd la co mo = Ret (Some s).
Proof.
  intros nd la co mo s Hs H. destruct (from_spec_total nd la co mo) as [l E]. rewrite E in *.
  pose proof (from_spec_known _ _ _ _ _ E) as K. destruct l as [t|]; [|discriminate].
  simpl in *. apply Nat.eqb_eq in H. rewrite (languages_inj t s); auto.
Qed.

Lemma spec_roundtrip : forall nd s, In s languages ->
  from_spec nd (get_language (Some s)) (get_country (Some s)) (get_modifier (Some s)) = Ret (Some s).
Proof.
  intros nd s Hs. apply lang_is_eq; auto.
  assert (X : forallb (fun s => lang_is (from_spec true (get_language (Some s)) (get_country (Some s)) (get_modifier (Some s))) s
                              && lang_is (from_spec false (get_language (Some s)) (get_country (Some s)) (get_modifier (Some s))) s)
                     languages = true) by (vm_compute; reflexivity).
  rewrite forallb_forall in X. specialize (X s Hs). apply andb_prop in X as [X1 X2]. destruct nd; auto.
Qed.

Lemma lang_is_env : forall nd e s, In s languages ->
  lang_is (from_env nd e) s = true -> from_env nd e = Ret (Some s).
Proof.
  intros nd e s Hs H. destruct (from_env_total nd e) as [l E]. rewrite E in *.
  pose proof (from_env_known _ _ _ E) as K. destruct l as [t|]; [|discriminate].
  simpl in *. apply Nat.eqb_eq in H. rewrite (languages_inj t s); auto.
Qed.

Lemma env_roundtrip : forall nd l, known l -> from_env nd (str l) = Ret l.
Proof.
  intros nd [s|] K.
  - apply lang_is_env; auto.
    assert (X : forallb (fun s => lang_is (from_env true (str (Some s))) s && lang_is (from_env false (str (Some s))) s)
                     languages = true) by (vm_compute; reflexivity).
    rewrite forallb_forall in X. specialize (X s K). apply andb_prop in X as [X1 X2]. destruct nd; auto.
  - destruct nd; vm_compute; reflexivity.
Qed.

Lemma str_inj : forall a b, known a -> known b -> str a = str b -> a = b.
Proof.
  intros a b Ka Kb H. pose proof (env_roundtrip false a Ka) as X. pose proof (env_roundtrip false b Kb) as Y.
  rewrite H in X. congruence.
Qed.

(** ** country-less representative *)
Lemma base_language : forall nd s, In s languages ->
  exists b, from_spec nd (ls_language s) [] [] = Ret (Some b) /\ In b languages /\
            get_country (Some b) = [] /\ ls_language b = ls_language s.
Proof.
  intros nd s Hs.
  assert (X : forallb (fun s => existsb (fun t => bytes_eqb (ls_language t) (ls_language s) &&
                 is_nil (get_country (Some t)) && is_nil (get_modifier (Some t))) languages) languages = true)
    by (vm_compute; reflexivity).
  rewrite forallb_forall in X. specialize (X s Hs). apply existsb_exists in X as (t & Ht & X).
  apply andb_prop in X as [X X3]. apply andb_prop in X as [X1 X2]. apply bytes_eqb_eq in X1.
  destruct (is_nil_spec _ (get_country (Some t))) as [C|]; [|discriminate].
  destruct (is_nil_spec _ (get_modifier (Some t))) as [Mo|]; [|discriminate].
  destruct (from_spec_cases nd (ls_language s) [] []) as [[_ N]|(l1 & b & l2 & E & T & L & F1 & F2)].
  - exfalso. now apply (N s Hs).
  - exists b. split; auto. assert (Hb : In b languages) by (rewrite T; apply in_app_iff; right; now left).
    split; auto. split; auto.
    assert (M9 : (lang_match (Some t) (asked (ls_language s) (c_str []) (c_str [])) = 9)%Z).
    { apply lang_match_nine. simpl in *. auto. }
    assert (B9 : (lang_match (Some b) (asked (ls_language s) (c_str []) (c_str [])) = 9)%Z).
    { pose proof (lang_match_range (Some b) (asked (ls_language s) (c_str []) (c_str []))).
      rewrite T in Ht. apply in_app_iff in Ht as [Ht|[Ht|Ht]].
      - specialize (F1 t Ht X1). lia.
      - congruence.
      - specialize (F2 t Ht X1). lia. }
    apply lang_match_nine in B9 as (_ & B9 & _). exact B9.
Qed.

(** ** order *)
Lemma lang_ltb_irrefl : forall a, lang_ltb a a = false.
Proof. intros [a|]; simpl; auto. apply Nat.ltb_irrefl. Qed.
Lemma lang_ltb_trans : forall a b c, lang_ltb a b = true -> lang_ltb b c = true -> lang_ltb a c = true.
Proof. intros [a|] [b|] [c|]; simpl; try congruence. rewrite !Nat.ltb_lt. lia. Qed.
Lemma lang_ltb_total : forall a b, known a -> known b -> a <> b -> lang_ltb a b = true \/ lang_ltb b a = true.
Proof.
  intros [a|] [b|] Ka Kb N; simpl; auto. rewrite !Nat.ltb_lt.
  destruct (Nat.lt_trichotomy (ls_addr a) (ls_addr b)) as [|[E|]]; auto.
  exfalso. apply N. f_equal. now apply languages_inj.
Qed.

(** ** aliases *)
Lemma aliases_nodup : NoDup (List.map fst aliases).
Proof.
  assert (D : forall l : list bytes,
    (fix go l := match l with [] => true | x :: r => negb (existsb (bytes_eqb x) r) && go r end) l = true
    -> NoDup l).
  { induction l as [|x l IH]; intros H; constructor; apply andb_prop in H as [H1 H2]; auto.
    intros Hin. apply negb_true_iff in H1. rewrite existsb_false_forall in H1.
    specialize (H1 _ Hin). rewrite bytes_eqb_refl in H1. discriminate. }
  apply D. vm_compute. reflexivity.
Qed.

Lemma tolower_not_upper : forall c, isupper (tolower c) = false.
Proof.
  intros c. apply negb_true_iff. revert c. apply (forall_bytes (fun c => negb (isupper (tolower c)))).
  vm_compute. reflexivity.
Qed.

Lemma lowered_has_no_upper : forall s, existsb isupper (List.map tolower s) = false.
Proof. induction s; simpl; auto. now rewrite tolower_not_upper, IHs. Qed.
