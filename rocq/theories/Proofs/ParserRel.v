(** Lock-step simulation of two parser runs.

    Two runs whose states are related by [R] (and whose current lines are related by
    a relation [C] under which all scanners agree) end in related states with equal
    outcomes, unless the first run exhausts its fuel, or the runs fall into the
    escape relation [E], which must be closed under whatever each run does next. *)
From Verif.Model Require Import Base Log PluralForms Dictionary IConv Stream PoParser.
From Verif.Proofs Require Import BaseFacts LexProofs ParserUnary.
Local Open Scope list_scope.

(** What every parser step does to the stream and the call record. *)
Definition ext {I} (s s' : pst I) : Prop :=
  (exists x, p_calls s' = p_calls s ++ x) /\
  (is_good (p_in s) = false -> is_good (p_in s') = false) /\
  (p_eof s = true -> p_eof s' = true) /\
  d_charset (p_dict s') = d_charset (p_dict s).

Lemma ext_refl I (s : pst I) : ext s s.
Proof. repeat split; auto. exists []. now rewrite app_nil_r. Qed.
Lemma ext_trans I (a b c : pst I) : ext a b -> ext b c -> ext a c.
Proof.
  intros ([x Hx] & H1 & H2 & H3) ([y Hy] & H4 & H5 & H6). repeat split; auto.
  - exists (x ++ y). rewrite Hy, Hx, app_assoc. reflexivity.
  - congruence.
Qed.

Lemma apply_call_charset d c : d_charset (apply_call d c) = d_charset d.
Proof.
  destruct c as [[[?|] ? ?|[?|] ? ? ?]|p]; simpl.
  - unfold add_ctxt_singular. destruct (put_singular _ _); reflexivity.
  - unfold add_singular. destruct (put_singular _ _); reflexivity.
  - unfold add_ctxt_plural. destruct (put_plural _ _); reflexivity.
  - unfold add_plural. destruct (put_plural _ _); reflexivity.
  - destruct (pf_valid _); reflexivity.
Qed.

Lemma nextst_notgood I (s : pst I) : is_good (p_in s) = false -> is_good (p_in (nextst s)) = false.
Proof.
  intro G. unfold nextst. rewrite (getline_bad _ _ G). simpl. unfold is_good in *. simpl.
  now rewrite andb_false_r.
Qed.

Lemma ext_next I (s : pst I) : ext s (nextst s).
Proof.
  repeat split.
  - exists []. unfold nextst. destruct (getline _ _) as [[? ?] ?]. simpl. now rewrite app_nil_r.
  - apply nextst_notgood.
  - unfold nextst. destruct (getline _ _) as [[? ?] []]; simpl; auto.
  - unfold nextst. destruct (getline _ _) as [[? ?] ?]; reflexivity.
Qed.

Definition mono {I A} (m : M (pst I) A) : Prop := forall s, ext s (snd (m s)).

Section Mono.
  Variable cf : config.
  Variable fn : bytes.
  Variable uf : bool.
  Local Notation I := (cf_iconv cf).

  Lemma mono_of_tri A (m : M (pst I) A) :
    (forall s0, tri cf (fun s => ext s0 s) (fun _ s => ext s0 s) m) -> mono m.
  Proof.
    intros H s. specialize (H s s (ext_refl _ s)). unfold post in H.
    destruct (m s) as [[a|[]|u| |] s']; exact H.
  Qed.

  Lemma x_next s0 (s : pst I) : ext s0 s -> ext s0 (nextst s).
  Proof. intro H. eapply ext_trans; [exact H|apply ext_next]. Qed.
  Lemma x_tr s0 (s : pst I) t : ext s0 s -> ext s0 (st_tr s t).
  Proof. intro H. exact H. Qed.
  Lemma x_call s0 (s : pst I) c : ext s0 s -> ext s0 (st_dict s (apply_call (p_dict s) c) (p_calls s ++ [c])).
  Proof.
    intro H. eapply ext_trans; [exact H|]. repeat split; simpl; auto.
    - exists [c]; reflexivity.
    - apply apply_call_charset.
  Qed.
  Lemma x_conv s0 (s : pst I) t : ext s0 s -> post cf (fun s => ext s0 s) (fun _ s => ext s0 s) (do_convert cf t s).
  Proof.
    intro H. unfold do_convert. destruct (convert _ _ _) as [[o c] ev].
    destruct o as [a|[]|u| |]; exact H.
  Qed.
  Lemma x_set s0 (s : pst I) c d : ext s0 s -> post cf (fun s => ext s0 s) (fun _ s => ext s0 s) (do_set_charsets cf c d s).
  Proof.
    intro H. unfold do_set_charsets. destruct (set_charsets _ _ _ _) as [[o c'] ev].
    destruct o as [a|[]|u| |]; exact H.
  Qed.

  Ltac mono_tac L := apply mono_of_tri; intro s0;
    eapply L; try exact true;
    first [ now (intros; apply x_next; auto) | now (intros; apply x_conv; auto) | now (intros; apply x_set; auto)
          | now (intros; apply x_call; auto) | now (intros; assumption) | now auto | idtac ].

  Lemma mono_get_string k : mono (get_string cf fn k).
  Proof. mono_tac tri_get_string. Qed.
  Lemma mono_get_string_line o k : mono (get_string_line cf fn o k).
  Proof. mono_tac tri_get_string_line. Qed.
  Lemma mono_continuation f o : mono (continuation cf fn f o).
  Proof. mono_tac tri_continuation. Qed.
  Lemma mono_error A m : mono (@error cf fn A m).
  Proof. mono_tac tri_error. Qed.
  Lemma mono_recover f : mono (recover cf f).
  Proof. mono_tac tri_recover. Qed.
  Lemma mono_warning w : mono (warning cf fn w).
  Proof. mono_tac tri_warning. Qed.
  Lemma mono_next : mono (next_line cf).
  Proof. mono_tac tri_next. Qed.
  Lemma mono_empty : mono (is_empty_line cf).
  Proof. mono_tac tri_empty. Qed.
  Lemma mono_msgstr_n : mono (is_msgstr_n cf).
  Proof. mono_tac tri_msgstr_n. Qed.
  Lemma mono_find_quote i l : mono (find_quote cf i l).
  Proof. mono_tac tri_find_quote. Qed.
  Lemma mono_prefix k : mono (prefix cf k).
  Proof. intro s. apply ext_refl. Qed.
  Lemma mono_add op : mono (dict_add cf op).
  Proof. mono_tac tri_add. Qed.
  Lemma mono_call c : sound_call c -> mono (dict_call_ cf c).
  Proof. intros _ s. apply x_call, ext_refl. Qed.
  Lemma mono_convert t : mono (do_convert cf t).
  Proof. mono_tac tri_convert. Qed.
  Lemma mono_header_line l c : mono (header_line cf fn l c).
  Proof. mono_tac tri_header_line. Qed.
  Lemma mono_header_loop h a c : mono (header_loop cf fn h a c).
  Proof. mono_tac tri_header_loop. Qed.
  Lemma mono_parse_header h : mono (parse_header cf fn h).
  Proof. mono_tac tri_parse_header. Qed.
  Lemma mono_comments f b : mono (comments cf f b).
  Proof. mono_tac tri_comments. Qed.
  Lemma mono_msgstr_loop f v b : mono (msgstr_loop cf fn f v b).
  Proof. mono_tac tri_msgstr_loop. Qed.
  Lemma mono_plural_entry a b c : mono (plural_entry cf fn uf a b c).
  Proof. mono_tac tri_plural_entry. Qed.
  Lemma mono_singular_entry a b c : mono (singular_entry cf fn uf a b c).
  Proof. mono_tac tri_singular_entry. Qed.
  Lemma mono_entry a : mono (entry cf fn uf a).
  Proof. mono_tac tri_entry. Qed.
  Lemma mono_block : mono (block cf fn uf).
  Proof. mono_tac tri_block. Qed.
  Lemma mono_try : mono (try_block cf fn uf).
  Proof. mono_tac tri_try. Qed.
  Lemma mono_loop f : mono (parse_loop cf fn uf f).
  Proof. mono_tac tri_loop. Qed.
  Lemma mono_set c d : mono (do_set_charsets cf c d).
  Proof.
    intro s. unfold do_set_charsets. destruct (set_charsets _ _ _ _) as [[o c'] ev].
    exact (ext_refl _ s).
  Qed.
End Mono.

Lemma mono_ret I A (a : A) : mono (@mret (pst I) A a).
Proof. intro s. apply ext_refl. Qed.
Lemma mono_fail I A o : mono (@mfail (pst I) A o).
Proof. intro s. apply ext_refl. Qed.
Lemma mono_get I A (f : pst I -> A) : mono (mget f).
Proof. intro s. apply ext_refl. Qed.
Lemma mono_bind I A B (m : M (pst I) A) (f : A -> M (pst I) B) :
  mono m -> (forall a, mono (f a)) -> mono (mbind m f).
Proof.
  intros Hm Hf s. specialize (Hm s). unfold mbind. destruct (m s) as [[a|e|u| |] s']; simpl in *; auto.
  eapply ext_trans; [exact Hm|apply Hf].
Qed.
Lemma mono_if I A (b : bool) (m1 m2 : M (pst I) A) : mono m1 -> mono m2 -> mono (if b then m1 else m2).
Proof. destruct b; auto. Qed.
Lemma mono_lift I A (o : outcome A) : mono (@mlift (pst I) A o).
Proof. intro s. apply ext_refl. Qed.
Lemma mono_big5 I : mono (@mmod (pst I) (fun s => st_big5 s true)).
Proof. intro s. exact (ext_refl _ s). Qed.

Ltac mono :=
  intros; lazymatch goal with
  | |- mono (mbind _ _) => apply mono_bind; [mono|mono]
  | |- mono (if ?b then _ else _) => destruct b; mono
  | |- mono (let _ := _ in _) => cbv zeta; mono
  | |- mono (match ?x with _ => _ end) => destruct x; mono
  | |- mono (mret _) => apply mono_ret
  | |- mono (mfail _) => apply mono_fail
  | |- mono (mget _) => apply mono_get
  | |- mono (mlift _) => apply mono_lift
  | |- mono (mmod _) => apply mono_big5
  | |- mono (@error ?cf ?fn ?A ?m) => exact (mono_error cf fn A m)
  | |- mono (get_string ?cf ?fn ?a0) => exact (mono_get_string cf fn a0)
  | |- mono (get_string_line ?cf ?fn ?a0 ?a1) => exact (mono_get_string_line cf fn a0 a1)
  | |- mono (continuation ?cf ?fn ?a0 ?a1) => exact (mono_continuation cf fn a0 a1)
  | |- mono (find_quote ?cf ?i ?l) => exact (mono_find_quote cf i l)
  | |- mono (dict_call_ ?cf ?c) => refine (mono_call cf c _); first [exact Logic.I | assumption]
  | |- mono (prefix ?cf ?k) => exact (mono_prefix cf k)
  | |- mono (recover ?cf ?a0) => exact (mono_recover cf a0)
  | |- mono (warning ?cf ?fn ?a0) => exact (mono_warning cf fn a0)
  | |- mono (next_line ?cf ) => exact (mono_next cf )
  | |- mono (is_empty_line ?cf ) => exact (mono_empty cf )
  | |- mono (is_msgstr_n ?cf ) => exact (mono_msgstr_n cf )
  | |- mono (dict_add ?cf ?a0) => exact (mono_add cf a0)
  | |- mono (do_convert ?cf ?a0) => exact (mono_convert cf a0)
  | |- mono (header_line ?cf ?fn ?a0 ?a1) => exact (mono_header_line cf fn a0 a1)
  | |- mono (header_loop ?cf ?fn ?a0 ?a1 ?a2) => exact (mono_header_loop cf fn a0 a1 a2)
  | |- mono (parse_header ?cf ?fn ?a0) => exact (mono_parse_header cf fn a0)
  | |- mono (comments ?cf ?a0 ?a1) => exact (mono_comments cf a0 a1)
  | |- mono (msgstr_loop ?cf ?fn ?a0 ?a1 ?a2) => exact (mono_msgstr_loop cf fn a0 a1 a2)
  | |- mono (plural_entry ?cf ?fn ?a0 ?a1 ?a2 ?a3) => exact (mono_plural_entry cf fn a0 a1 a2 a3)
  | |- mono (singular_entry ?cf ?fn ?a0 ?a1 ?a2 ?a3) => exact (mono_singular_entry cf fn a0 a1 a2 a3)
  | |- mono (entry ?cf ?fn ?a0 ?a1) => exact (mono_entry cf fn a0 a1)
  | |- mono (block ?cf ?fn ?a0) => exact (mono_block cf fn a0)
  | |- mono (try_block ?cf ?fn ?a0) => exact (mono_try cf fn a0)
  | |- mono (parse_loop ?cf ?fn ?a0 ?a1) => exact (mono_loop cf fn a0 a1)
  | |- mono (do_set_charsets ?cf ?a0 ?a1) => exact (mono_set cf a0 a1)
  | |- _ => idtac
  end.

(** scanner results that lead to the same value, or both to an error *)
Definition lsim {A} (r1 r2 : lexres A) : Prop :=
  match r1, r2 with
  | LOk _ a, LOk _ b => a = b
  | LErr _ _, LErr _ _ => True
  | LUb _, LUb _ => True
  | _, _ => False
  end.

Definition kw_ctxt := bs "msgctxt".
Definition kw_id := bs "msgid".
Definition kw_plural := bs "msgid_plural".
Definition kw_str := bs "msgstr".

Lemma mget_bind S A B (g : S -> A) (k : A -> M S B) s : mbind (mget g) k s = k (g s) s.
Proof. reflexivity. Qed.
Lemma mmod_bind S B (g : S -> S) (k : unit -> M S B) s : mbind (mmod g) k s = k tt (g s).
Proof. reflexivity. Qed.

Lemma recover_S cf f s :
  recover cf (S f) s =
  mbind (mget p_eof) (fun eof => if eof then mret tt
     else mbind (is_empty_line cf) (fun e => if e then mret tt else recover cf f)) (nextst s).
Proof. reflexivity. Qed.

Lemma mono_recover_tail cf f :
  mono (mbind (mget p_eof) (fun eof => if eof then mret tt
     else mbind (is_empty_line cf) (fun e => if e then mret tt else recover cf f))).
Proof. mono. Qed.

  (** everything in a block but the final next_line *)
  Definition block_body (cf : config) (fn : bytes) : M (pst (cf_iconv cf)) unit :=
    mbind (comments cf (cf_fuel cf) false) (fun fuzzy =>
    mbind (is_empty_line cf) (fun e =>
    mbind (if e then mret tt else entry cf fn true fuzzy) (fun _ =>
    mbind (is_empty_line cf) (fun e' =>
    (if e' then mret tt else error cf fn (bs "expected empty line")))))).

  Lemma mono_block_body cf fn : mono (block_body cf fn).
  Proof. unfold block_body. mono. Qed.

  Lemma block_eq cf fn s : block cf fn true s = mbind (block_body cf fn) (fun _ => next_line cf) s.
  Proof.
    unfold block, block_body, mbind.
    destruct (comments _ _ _ s) as [[b|?|?| |] s1]; try reflexivity.
    destruct (is_empty_line cf s1) as [[e|?|?| |] s2]; try reflexivity.
    destruct ((if e then mret tt else entry cf fn true b) s2) as [[?|?|?| |] s3]; try reflexivity.
    destruct (is_empty_line cf s3) as [[e'|?|?| |] s4]; reflexivity.
  Qed.

(** converters that behave alike: equal up to ghost serials and charset names *)
Definition cv_eqv {I} (c1 c2 : iconv I) : Prop :=
  match cv_cd c1, cv_cd c2 with
  | CdNull, CdNull => True
  | CdInvalid, CdInvalid => True
  | CdOpen _ a, CdOpen _ b => a = b
  | _, _ => False
  end.
Lemma cv_eqv_refl I (c : iconv I) : cv_eqv c c.
Proof. unfold cv_eqv. destruct (cv_cd c); auto. Qed.
Lemma cv_eqv_sym I (c1 c2 : iconv I) : cv_eqv c1 c2 -> cv_eqv c2 c1.
Proof. unfold cv_eqv. destruct (cv_cd c1), (cv_cd c2); auto. Qed.
Lemma convert_eqv {I nd} t {c1 c2 : iconv I} : cv_eqv c1 c2 ->
  fst (fst (convert nd c1 t)) = fst (fst (convert nd c2 t)) /\
  cv_eqv (snd (fst (convert nd c1 t))) (snd (fst (convert nd c2 t))).
Proof.
  intro H. pose proof H as H0. unfold convert, cv_eqv in *.
  destruct (cv_cd c1) as [| |i st] eqn:E1, (cv_cd c2) as [| |j st'] eqn:E2; try contradiction; [simpl; rewrite E1, E2; auto|simpl; rewrite E1, E2; auto|].
  subst st'. destruct (ic_conv I st t (4 * length t)) as [[st' out] [e|]]; [destruct e; try destruct nd|]; simpl; auto.
Qed.
Lemma set_charsets_eqv {I} strict f t {c1 c2 : iconv I} : cv_eqv c1 c2 ->
  fst (fst (set_charsets strict c1 f t)) = fst (fst (set_charsets strict c2 f t)) /\
  cv_eqv (snd (fst (set_charsets strict c1 f t))) (snd (fst (set_charsets strict c2 f t))).
Proof.
  intro H. unfold set_charsets. destruct (strict && _); [simpl; auto|].
  destruct (bytes_eqb _ _); [simpl; split; [reflexivity|exact Logic.I]|].
  destruct (ic_open I _ _) as [st|[e txt]]; simpl; split; try reflexivity; exact Logic.I.
Qed.

Section Rel.
  Variable I : iconv_impl.
  Variables strict nd pd1 pd2 : bool.
  Variables f1 f2 : nat.
  Variables fn1 fn2 : bytes.
  Hypothesis Hf : f1 <= f2.

  Definition mkcf (pd : bool) (f : nat) : config :=
    {| cf_pedantic := pd; cf_strict := strict; cf_ndebug := nd; cf_fuel := f; cf_iconv := I |}.
  Local Notation cf1 := (mkcf pd1 f1).
  Local Notation cf2 := (mkcf pd2 f2).
  Local Notation S_ := (pst I).

  Variable C : bytes -> bytes -> Prop.
  Variables R E0 E : S_ -> S_ -> Prop.

  Hypothesis C_empty : forall a b, C a b -> pempty strict a = pempty strict b.
  Hypothesis C_prefix : forall k a b, C a b -> In k [[c_hash]; kw_ctxt; kw_id; kw_plural; kw_str] ->
    starts_with k a = starts_with k b.
  Hypothesis C_first : forall k skip b5 a b, C a b ->
    In (k, skip) [(kw_ctxt, 7); (kw_id, 5); (kw_plural, 12); (kw_str, 6)] -> starts_with k a = true ->
    lsim (pfirst strict pd1 b5 skip a) (pfirst strict pd2 b5 skip b).
  Hypothesis C_first9 : forall b5 a b, C a b -> pmsgstr_n strict a = Some true ->
    lsim (pfirst strict pd1 b5 9 a) (pfirst strict pd2 b5 9 b).
  Hypothesis C_quote : forall a b, C a b -> pquote strict 0 a = pquote strict 0 b.
  Hypothesis C_line : forall b5 out i a b, C a b -> pquote strict 0 a = Some (Some i) ->
    lsim (pline strict b5 out i a) (pline strict b5 out i b).
  Hypothesis C_msgstr : forall a b, C a b -> pmsgstr_n strict a = pmsgstr_n strict b /\
    (pmsgstr_n strict a = Some true -> nth 7 a c_nul = nth 7 b c_nul).
  Hypothesis C_bom : forall a b, C a b -> starts_with bom a = starts_with bom b.

  Hypothesis R_obs : forall s1 s2, R s1 s2 ->
    C (p_cur s1) (p_cur s2) /\ p_eof s1 = p_eof s2 /\ p_big5 s1 = p_big5 s2 /\ cv_eqv (p_conv s1) (p_conv s2) /\
    d_charset (p_dict s1) = d_charset (p_dict s2).
  Hypothesis R_next : forall s1 s2, R s1 s2 ->
    R (nextst s1) (nextst s2) \/ E (nextst s1) (nextst s2).
  Hypothesis R_tr : forall s1 s2 t1 t2, R s1 s2 -> R (st_tr s1 t1) (st_tr s2 t2).
  Hypothesis R_call : forall s1 s2 c, R s1 s2 -> sound_call c ->
    R (st_dict s1 (apply_call (p_dict s1) c) (p_calls s1 ++ [c]))
      (st_dict s2 (apply_call (p_dict s2) c) (p_calls s2 ++ [c])).
  Hypothesis R_conv : forall s1 s2 c1 c2, cv_eqv c1 c2 -> R s1 s2 -> R (st_conv s1 c1) (st_conv s2 c2).
  Hypothesis R_big5 : forall s1 s2, R s1 s2 -> R (st_big5 s1 true) (st_big5 s2 true).
  Hypothesis R_bom : forall s1 s2, R s1 s2 -> starts_with bom (p_cur s1) = true ->
    R (st_cur s1 (skipn 3 (p_cur s1))) (st_cur s2 (skipn 3 (p_cur s2))).
  Hypothesis R_E0 : forall s1 s2, R s1 s2 -> E0 s1 s2.
  Hypothesis E_ext : forall s1 s2 s1' s2', E s1 s2 -> ext s1 s1' -> ext s2 s2' -> E s1' s2'.
  Hypothesis E0_ext : forall s1 s2 s1' s2', E0 s1 s2 -> ext s1 s1' -> ext s2 s2' -> E0 s1' s2'.

  Definition orel {A B} (V : A -> B -> Prop) (o1 : outcome A) (o2 : outcome B) : Prop :=
    match o1, o2 with
    | Ret a, Ret b => V a b
    | Exn e, Exn e' => e = e'
    | Ub u, Ub u' => u = u'
    | AssertFail, AssertFail => True
    | OutOfFuel, OutOfFuel => True
    | _, _ => False
    end.

  Definition rpost {A B} (V : A -> B -> Prop) (r1 : outcome A * S_) (r2 : outcome B * S_) : Prop :=
    (orel V (fst r1) (fst r2) /\ R (snd r1) (snd r2)) \/
    (fst r1 = OutOfFuel /\ E0 (snd r1) (snd r2)) \/
    E (snd r1) (snd r2).

  Definition rel {A B} (V : A -> B -> Prop) (m1 : M S_ A) (m2 : M S_ B) : Prop :=
    forall s1 s2, R s1 s2 -> rpost V (m1 s1) (m2 s2).

  Lemma rpost_bind A A' B B' (V : A -> B -> Prop) (W : A' -> B' -> Prop) m1 m2
        (g1 : A -> M S_ A') (g2 : B -> M S_ B') s1 s2 :
    rpost V (m1 s1) (m2 s2) ->
    (forall a b s1' s2', V a b -> R s1' s2' -> m1 s1 = (Ret a, s1') -> m2 s2 = (Ret b, s2') ->
       rpost W (g1 a s1') (g2 b s2')) ->
    (forall a, mono (g1 a)) -> (forall b, mono (g2 b)) ->
    rpost W (mbind m1 g1 s1) (mbind m2 g2 s2).
  Proof.
    intros H Hg M1 M2. unfold mbind.
    destruct (m1 s1) as [o1 s1'] eqn:E1, (m2 s2) as [o2 s2'] eqn:E2. unfold rpost in H. simpl in H.
    destruct H as [[Ho HR]|[[Ho HE]|HE]].
    - destruct o1, o2; simpl in Ho; try contradiction; try (left; simpl; split; [exact Ho|exact HR]).
      apply Hg; auto.
    - subst o1. right; left. split; [reflexivity|].
      destruct o2 as [b|e|u| |]; simpl; try exact HE.
      eapply E0_ext; [exact HE|apply ext_refl|apply M2].
    - right; right. eapply E_ext; [exact HE| |].
      + destruct o1 as [b|e|u| |]; simpl; try apply ext_refl; apply M1.
      + destruct o2 as [b|e|u| |]; simpl; try apply ext_refl; apply M2.
  Qed.

  Lemma rel_bind A A' B B' (V : A -> B -> Prop) (W : A' -> B' -> Prop) m1 m2
        (g1 : A -> M S_ A') (g2 : B -> M S_ B') :
    rel V m1 m2 -> (forall a b, V a b -> rel W (g1 a) (g2 b)) ->
    (forall a, mono (g1 a)) -> (forall b, mono (g2 b)) ->
    rel W (mbind m1 g1) (mbind m2 g2).
  Proof.
    intros H Hg M1 M2 s1 s2 HR. eapply rpost_bind; eauto. intros. eapply Hg; eauto.
  Qed.

  Lemma rel_ret A B (V : A -> B -> Prop) a b : V a b -> rel V (mret a) (mret b).
  Proof. intros H s1 s2 HR. left. split; auto. Qed.
  Lemma rel_get A B (V : A -> B -> Prop) g1 g2 :
    (forall s1 s2, R s1 s2 -> V (g1 s1) (g2 s2)) -> rel V (mget g1) (mget g2).
  Proof. intros H s1 s2 HR. left. split; simpl; auto. Qed.
  Lemma rel_fuel A B (V : A -> B -> Prop) (m2 : M S_ B) : mono m2 -> rel V (mfail OutOfFuel) m2.
  Proof.
    intros Hm s1 s2 HR. right; left. split; [reflexivity|].
    eapply E0_ext; [apply R_E0, HR|apply ext_refl|apply Hm].
  Qed.
  Lemma rel_next : rel eq (next_line cf1) (next_line cf2).
  Proof.
    intros s1 s2 HR. rewrite !next_line_eq. destruct (R_next _ _ HR) as [H|H]; [left|right; right]; simpl; auto.
  Qed.

  Lemma R_warned ws1 : forall ws2 s1 s2, R s1 s2 -> R (warned_all cf1 fn1 ws1 s1) (warned_all cf2 fn2 ws2 s2).
  Proof.
    assert (A1 : forall ws s1 s2, R s1 s2 -> R (warned_all cf1 fn1 ws s1) s2).
    { induction ws as [|w ws IH]; intros s1 s2 HR; simpl; auto. apply IH.
      replace s2 with (st_tr s2 (p_tr s2)) by (destruct s2; reflexivity). apply R_tr, HR. }
    assert (A2 : forall ws s1 s2, R s1 s2 -> R s1 (warned_all cf2 fn2 ws s2)).
    { induction ws as [|w ws IH]; intros s1 s2 HR; simpl; auto. apply IH.
      replace s1 with (st_tr s1 (p_tr s1)) by (destruct s1; reflexivity). apply R_tr, HR. }
    intros. auto.
  Qed.

  Lemma rel_warn_l A B (V : A -> B -> Prop) w (m1 : M S_ A) m2 :
    rel V m1 m2 -> rel V (mbind (warning cf1 fn1 w) (fun _ => m1)) m2.
  Proof.
    intros H s1 s2 HR. unfold mbind. rewrite warning_eq. apply H.
    apply (R_warned [w] [] _ _ HR).
  Qed.
  Lemma rel_warn_r A B (V : A -> B -> Prop) w (m1 : M S_ A) (m2 : M S_ B) :
    rel V m1 m2 -> rel V m1 (mbind (warning cf2 fn2 w) (fun _ => m2)).
  Proof.
    intros H s1 s2 HR. unfold mbind. rewrite warning_eq. apply H.
    apply (R_warned [] [w] _ _ HR).
  Qed.
  (** any two computations that only log *)
  Definition silent1 (m : M S_ unit) : Prop := forall s, exists t, m s = (Ret tt, st_tr s t).
  Lemma st_tr_id (s : S_) : st_tr s (p_tr s) = s.
  Proof. destruct s; reflexivity. Qed.
  Lemma rel_silent m1 m2 : silent1 m1 -> silent1 m2 -> rel eq m1 m2.
  Proof.
    intros H1 H2 s1 s2 HR. destruct (H1 s1) as [t1 ->], (H2 s2) as [t2 ->]. left. split; [reflexivity|].
    simpl. apply R_tr, HR.
  Qed.
  Lemma silent_ret : silent1 (mret tt).
  Proof. intro s. exists (p_tr s). rewrite st_tr_id. reflexivity. Qed.
  Lemma silent_w1 pd f fn w : silent1 (warning (mkcf pd f) fn w).
  Proof. intro s. rewrite warning_eq. eexists. reflexivity. Qed.
  Lemma silent_emit pd f e : silent1 (emit (mkcf pd f) e).
  Proof. intro s. eexists. reflexivity. Qed.
  Lemma silent_if (b : bool) m1 m2 : silent1 m1 -> silent1 m2 -> silent1 (if b then m1 else m2).
  Proof. destruct b; auto. Qed.

  Lemma rel_run_opt A (r1 r2 : option A) : r1 = r2 -> rel eq (run_opt cf1 r1) (run_opt cf2 r2).
  Proof. intros <- s1 s2 HR. destruct r1; left; simpl; auto. Qed.

  Lemma rel_empty : rel eq (is_empty_line cf1) (is_empty_line cf2).
  Proof.
    intros s1 s2 HR. rewrite !is_empty_line_eq. apply rel_run_opt; auto.
    destruct (R_obs _ _ HR) as (Hc & _). apply C_empty, Hc.
  Qed.

  Lemma rel_recover g1 : forall g2 s1 s2, R s1 s2 -> enough cf1 g1 s1 -> enough cf2 g2 s2 ->
    rpost eq (recover cf1 g1 s1) (recover cf2 g2 s2).
  Proof.
    induction g1 as [|g1 IH]; intros g2 s1 s2 HR H1 H2.
    { apply enough_pos in H1. lia. }
    destruct g2 as [|g2].
    { apply enough_pos in H2. lia. }
    rewrite !recover_S.
    destruct (R_next _ _ HR) as [HR'|HE].
    2:{ right; right. eapply E_ext; [exact HE|apply (mono_recover_tail cf1 g1)|apply (mono_recover_tail cf2 g2)]. }
    destruct (R_obs _ _ HR') as (Hc & He & _).
    rewrite !mget_bind. cbn [cf_iconv mkcf]. rewrite <- He.
    destruct (p_eof (nextst s1)) eqn:Ee1.
    { left. simpl. auto. }
    symmetry in He.
    eapply rpost_bind; [apply rel_empty; exact HR'| |mono|mono].
    intros a b s1' s2' <- HR'' M1 M2.
    destruct a; [left; simpl; auto|].
    assert (s1' = nextst s1) as ->.
    { rewrite is_empty_line_eq in M1. destruct (pempty _ _) as [[]|]; simpl in M1; inversion M1; auto. }
    assert (s2' = nextst s2) as ->.
    { rewrite is_empty_line_eq in M2. destruct (pempty _ _) as [[]|]; simpl in M2; inversion M2; auto. }
    apply IH; auto; apply enough_step; auto; cbn [cf_iconv mkcf]; congruence.
  Qed.

  Lemma rel_error A B (V : A -> B -> Prop) m1 m2 : rel V (error cf1 fn1 m1) (error cf2 fn2 m2).
  Proof.
    intros s1 s2 HR. unfold error. rewrite !mget_bind. cbn [cf_iconv mkcf].
    unfold emit. rewrite !mmod_bind.
    eapply rpost_bind; [apply rel_recover; [apply R_tr, HR|apply error_enough|apply error_enough]| |mono|mono].
    intros. left. simpl. auto.
  Qed.

  Lemma rel_run_lex A (r1 r2 : lexres A) : lsim r1 r2 -> rel eq (run_lex cf1 fn1 r1) (run_lex cf2 fn2 r2).
  Proof.
    intros H s1 s2 HR. rewrite !run_lex_eq.
    destruct r1, r2; simpl in H; try contradiction.
    - subst. left. simpl. split; auto. apply R_warned, HR.
    - apply rel_error, R_warned, HR.
    - left. simpl. split; auto. apply R_warned, HR.
  Qed.

  Lemma rel_continuation g1 : forall g2 out, g1 <= g2 ->
    rel eq (continuation cf1 fn1 g1 out) (continuation cf2 fn2 g2 out).
  Proof.
    induction g1 as [|g1 IH]; intros g2 out Hg; [apply rel_fuel; mono|].
    destruct g2 as [|g2]; [lia|]. cbn [continuation].
    eapply rel_bind; [apply rel_next| |mono|mono]. intros _ _ _.
    intros s1 s2 HR. rewrite !mget_bind. cbn [cf_iconv mkcf].
    destruct (R_obs _ _ HR) as (Hc & _ & Hb & _).
    eapply rpost_bind; [rewrite !find_quote_eq; apply (rel_run_opt _ _ _ (C_quote _ _ Hc)); exact HR| |mono|mono].
    intros a b s1' s2' <- HR' M1 M2.
    rewrite find_quote_eq in M1, M2.
    destruct a as [i|]; [|left; simpl; auto].
    assert (Hq : pquote strict 0 (p_cur s1) = Some (Some i) /\ s1' = s1).
    { cbn [cf_strict cf_iconv mkcf] in M1. destruct (pquote strict 0 (p_cur s1)) as [q|] eqn:Eq; cbn [run_opt] in M1;
        inversion M1; subst; auto. }
    destruct Hq as [Hq ->].
    assert (s2' = s2) as ->.
    { cbn [cf_strict cf_iconv mkcf] in M2. destruct (pquote strict 0 (p_cur s2)) as [q|] eqn:Eq; cbn [run_opt] in M2;
        inversion M2; subst; auto. }
    clear M1 M2.
    match goal with |- rpost _ (mbind ?a ?k1 s1) (mbind ?b ?k2 s2) =>
      assert (Ha : silent1 a) by (apply silent_if; [apply silent_w1|apply silent_ret]);
      assert (Hb' : silent1 b) by (apply silent_if; [apply silent_w1|apply silent_ret]);
      destruct (Ha s1) as [t1 Et1]; destruct (Hb' s2) as [t2 Et2];
      unfold mbind at 1; rewrite Et1; unfold mbind at 2; rewrite Et2
    end.
    eapply rpost_bind; [rewrite !get_string_line_eq| |mono|mono].
    - apply rel_run_lex; [|apply R_tr, HR]. cbn [st_tr p_big5 p_cur cf_strict cf_iconv mkcf]. rewrite <- Hb.
      apply C_line; auto.
    - intros a b ? ? <- HR'' _ _. apply IH; [lia|exact HR''].
  Qed.

  Lemma rel_get_string k skip :
    In (k, skip) [(kw_ctxt, 7); (kw_id, 5); (kw_plural, 12); (kw_str, 6)] ->
    forall s1 s2, R s1 s2 -> starts_with k (p_cur s1) = true ->
    rpost eq (get_string cf1 fn1 skip s1) (get_string cf2 fn2 skip s2).
  Proof.
    intros Hk s1 s2 HR Hp. rewrite !get_string_eq. destruct (R_obs _ _ HR) as (Hc & _ & Hb & _).
    eapply rpost_bind; [| |mono|mono].
    - apply rel_run_lex; [|exact HR]. cbn [cf_strict cf_pedantic cf_iconv mkcf]. rewrite <- Hb. eapply C_first; eauto.
    - intros a b ? ? <- HR' _ _. apply rel_continuation; auto.
  Qed.
  Lemma rel_get_string9 s1 s2 : R s1 s2 -> pmsgstr_n strict (p_cur s1) = Some true ->
    rpost eq (get_string cf1 fn1 9 s1) (get_string cf2 fn2 9 s2).
  Proof.
    intros HR Hp. rewrite !get_string_eq. destruct (R_obs _ _ HR) as (Hc & _ & Hb & _).
    eapply rpost_bind; [| |mono|mono].
    - apply rel_run_lex; [|exact HR]. cbn [cf_strict cf_pedantic cf_iconv mkcf]. rewrite <- Hb. apply C_first9; auto.
    - intros a b ? ? <- HR' _ _. apply rel_continuation; auto.
  Qed.

  Lemma rel_convert t : rel eq (do_convert cf1 t) (do_convert cf2 t).
  Proof.
    intros s1 s2 HR. destruct (R_obs _ _ HR) as (_ & _ & _ & Hv & _). unfold do_convert. cbn [cf_ndebug mkcf cf_iconv].
    destruct (convert_eqv (nd := nd) t Hv) as [Ho He].
    destruct (convert nd (p_conv s1) t) as [[o c] ev], (convert nd (p_conv s2) t) as [[o2 c2] ev2].
    simpl in Ho, He. subst o2. left. simpl. split; [destruct o; simpl; auto|].
    apply R_tr, R_conv; [exact He|exact HR].
  Qed.
  Lemma rel_set cs s1 s2 : R s1 s2 ->
    rpost eq (do_set_charsets cf1 cs (get_charset (p_dict s1)) s1) (do_set_charsets cf2 cs (get_charset (p_dict s2)) s2).
  Proof.
    intros HR. destruct (R_obs _ _ HR) as (_ & _ & _ & Hv & Hd). unfold do_set_charsets, get_charset. cbn [cf_strict mkcf cf_iconv]. rewrite <- Hd.
    destruct (set_charsets_eqv strict cs (d_charset (p_dict s1)) Hv) as [Ho He].
    destruct (set_charsets strict (p_conv s1) cs _) as [[o c] ev], (set_charsets strict (p_conv s2) cs _) as [[o2 c2] ev2].
    simpl in Ho, He. subst o2. left. simpl. split; [destruct o; simpl; auto|].
    apply R_tr, R_conv; [exact He|exact HR].
  Qed.
  Lemma rel_call c : sound_call c -> rel eq (dict_call_ cf1 c) (dict_call_ cf2 c).
  Proof. intros Hc s1 s2 HR. left. simpl. split; auto. Qed.
  Lemma rel_add op : rel eq (dict_add cf1 op) (dict_add cf2 op).
  Proof.
    intros s1 s2 HR. unfold dict_add. rewrite !mget_bind. cbn [cf_iconv mkcf].
    eapply rpost_bind; [apply rel_silent; [apply silent_emit|apply silent_emit|exact HR]| | |].
    - intros _ _ ? ? _ HR' _ _. apply rel_call; [exact Logic.I|exact HR'].
    - mono.
    - mono.
  Qed.

  Lemma rel_header_line l cs : rel eq (header_line cf1 fn1 l cs) (header_line cf2 fn2 l cs).
  Proof.
    unfold header_line. destruct (starts_with content_type l).
    - destruct (starts_with content_type_full l).
      + cbn [cf_strict cf_iconv mkcf]. destruct (strict && _).
        * intros s1 s2 HR. left. simpl. auto.
        * apply rel_ret. reflexivity.
      + eapply rel_bind; [apply rel_silent; apply silent_w1| |mono|mono]. intros. apply rel_ret. reflexivity.
    - destruct (starts_with plural_forms_key l); [|apply rel_ret; reflexivity].
      cbn [cf_strict cf_iconv mkcf].
      assert (Mc : forall cf fn (d : dictionary) pf, pf_valid pf = true -> mono
           (mbind (if pf_valid (get_plural_forms d)
                   then if negb (pf_eqb (get_plural_forms d) pf)
                        then warning cf fn (bs "Plural-Forms missmatch between .po file and dictionary")
                        else mret tt else mret tt) (fun _ => dict_call_ cf (CallPlural pf)))).
      { intros cf fn d pf Hv. mono. }
      assert (Mw : forall cf fn pf, mono
           (if negb (pf_valid pf) then warning cf fn (bs "unknown Plural-Forms given")
            else mbind (mget p_dict) (fun d =>
            mbind (if pf_valid (get_plural_forms d)
                   then if negb (pf_eqb (get_plural_forms d) pf)
                        then warning cf fn (bs "Plural-Forms missmatch between .po file and dictionary")
                        else mret tt else mret tt) (fun _ => dict_call_ cf (CallPlural pf))))).
      { intros cf fn pf. destruct (pf_valid pf) eqn:Ev; cbn [negb]; [|mono].
        apply mono_bind; [mono|]. intro d. apply Mc, Ev. }
      eapply (rel_bind _ _ _ _ eq).
      + intros s1 s2 HR. left. unfold mlift. simpl. split; [|exact HR].
        destruct (from_string strict l); simpl; auto.
      + intros pf _ <-. eapply (rel_bind _ _ _ _ eq); [| |mono|mono].
        * destruct (pf_valid pf) eqn:Ev; cbn [negb].
          -- eapply (rel_bind _ _ _ _ (fun _ _ => True)).
             ++ apply rel_get; auto.
             ++ intros d1 d2 _. eapply rel_bind; [apply rel_silent| | |].
                ** apply silent_if; [apply silent_if; [apply silent_w1|apply silent_ret]|apply silent_ret].
                ** apply silent_if; [apply silent_if; [apply silent_w1|apply silent_ret]|apply silent_ret].
                ** intros. apply rel_call. exact Ev.
                ** mono.
                ** mono.
             ++ intros d. exact (Mc cf1 fn1 d pf Ev).
             ++ intros d. exact (Mc cf2 fn2 d pf Ev).
          -- apply rel_silent; apply silent_w1.
        * intros. apply rel_ret. reflexivity.
      + intros pf. apply mono_bind; [exact (Mw cf1 fn1 pf)|mono].
      + intros pf. apply mono_bind; [exact (Mw cf2 fn2 pf)|mono].
  Qed.
  Lemma rel_header_loop h : forall acc cs, rel eq (header_loop cf1 fn1 h acc cs) (header_loop cf2 fn2 h acc cs).
  Proof.
    induction h as [|c h IH]; intros acc cs; cbn [header_loop]; [apply rel_ret; reflexivity|].
    destruct (byte_eqb c c_lf); [|apply IH].
    eapply rel_bind; [apply rel_header_line| |mono|mono]. intros ? ? <-. apply IH.
  Qed.
  Lemma rel_parse_header h : rel eq (parse_header cf1 fn1 h) (parse_header cf2 fn2 h).
  Proof.
    unfold parse_header. eapply rel_bind; [apply rel_header_loop| |mono|mono].
    intros cs ? <-. eapply (rel_bind _ _ _ _ eq); [| |mono|mono].
    - destruct (_ || _).
      + eapply rel_bind; [apply rel_silent; apply silent_w1| |mono|mono]. intros. apply rel_ret. reflexivity.
      + destruct (bytes_eqb _ _); [|apply rel_ret; reflexivity].
        eapply (rel_bind _ _ _ _ eq); [| |mono|mono].
        * intros s1 s2 HR. left. simpl. auto.
        * intros. apply rel_ret. reflexivity.
    - intros cs' ? <-. intros s1 s2 HR. unfold mbind, mget. apply rel_set, HR.
  Qed.

  Lemma rel_comments g1 : forall g2 b1 b2, g1 <= g2 ->
    rel (fun _ _ => True) (comments cf1 g1 b1) (comments cf2 g2 b2).
  Proof.
    induction g1 as [|g1 IH]; intros g2 b1 b2 Hg; [apply rel_fuel; mono|].
    destruct g2 as [|g2]; [lia|]. cbn [comments].
    eapply (rel_bind _ _ _ _ eq); [| |mono|mono].
    - apply rel_get. intros s1 s2 HR. apply C_prefix; [apply R_obs, HR|left; reflexivity].
    - intros h ? <-. destruct h; [|apply rel_ret; exact Logic.I].
      eapply (rel_bind _ _ _ _ (fun _ _ => True)); [apply rel_get; auto| |mono|mono].
      intros c1 c2 _. eapply rel_bind; [apply rel_next| |mono|mono]. intros. apply IH. lia.
  Qed.

  Lemma rel_msgstr_loop g1 : forall g2 v b, g1 <= g2 ->
    rel eq (msgstr_loop cf1 fn1 g1 v b) (msgstr_loop cf2 fn2 g2 v b).
  Proof.
    induction g1 as [|g1 IH]; intros g2 v b Hg; [apply rel_fuel; mono|].
    destruct g2 as [|g2]; [lia|]. cbn [msgstr_loop].
    eapply rel_bind; [apply rel_empty| |mono|mono]. intros e ? <-. destruct e.
    - destruct (is_nil v); [apply rel_error|apply rel_ret; reflexivity].
    - intros s1 s2 HR. destruct (R_obs _ _ HR) as (Hc & _).
      destruct (C_msgstr _ _ Hc) as [Hm Hn].
      eapply rpost_bind; [rewrite !is_msgstr_n_eq; apply (rel_run_opt _ _ _ Hm); exact HR| |mono|mono].
      intros a ? s1' s2' <- HR' M1 M2. rewrite is_msgstr_n_eq in M1, M2.
      destruct a; [|apply rel_error, HR'].
      cbn [cf_strict cf_iconv mkcf] in M1, M2.
      destruct (pmsgstr_n strict (p_cur s1)) as [[]|] eqn:Em; cbn [run_opt] in M1; inversion M1; subst s1'.
      rewrite <- Hm in M2. cbn [run_opt] in M2. inversion M2; subst s2'.
      rewrite !mget_bind. cbn [cf_iconv mkcf]. rewrite <- (Hn eq_refl).
      eapply rpost_bind; [apply rel_get_string9; auto| |mono|mono].
      intros m ? ? ? <- HR2 _ _. eapply rpost_bind; [apply rel_convert; exact HR2| |mono|mono].
      intros x ? ? ? <- HR3 _ _. apply IH; [lia|exact HR3].
  Qed.

  Lemma rel_plural_entry z1 z2 ctxt id s1 s2 : R s1 s2 -> starts_with kw_plural (p_cur s1) = true ->
    rpost eq (plural_entry cf1 fn1 true z1 ctxt id s1) (plural_entry cf2 fn2 true z2 ctxt id s2).
  Proof.
    intros HR Hp. unfold plural_entry.
    eapply rpost_bind; [eapply rel_get_string; [|exact HR|exact Hp]; simpl; tauto| |mono|mono].
    intros mp ? ? ? <- HR' _ _. revert HR'. generalize s1' s2'.
    change (rel eq
     (mbind (msgstr_loop cf1 fn1 f1 [] false) (fun r => mbind (is_empty_line cf1) (fun e =>
       if negb e then error cf1 fn1 (bs "expected 'msgstr[N]' or empty line")
       else if snd r && (true || negb z1) then
         mbind (mget p_dict) (fun d =>
         mbind (if negb (pf_valid (get_plural_forms d)) then warning cf1 fn1 (bs "msgstr[N] seen, but no Plural-Forms given")
          else if negb (Z.of_nat (length (fst r)) =? get_nplural (get_plural_forms d))%Z
          then warning cf1 fn1 (bs "msgstr[N] count doesn't match Plural-Forms.nplural") else mret tt)
         (fun _ => dict_add cf1 (AddPlural ctxt id mp (fst r))))
       else mret tt)))
     (mbind (msgstr_loop cf2 fn2 f2 [] false) (fun r => mbind (is_empty_line cf2) (fun e =>
       if negb e then error cf2 fn2 (bs "expected 'msgstr[N]' or empty line")
       else if snd r && (true || negb z2) then
         mbind (mget p_dict) (fun d =>
         mbind (if negb (pf_valid (get_plural_forms d)) then warning cf2 fn2 (bs "msgstr[N] seen, but no Plural-Forms given")
          else if negb (Z.of_nat (length (fst r)) =? get_nplural (get_plural_forms d))%Z
          then warning cf2 fn2 (bs "msgstr[N] count doesn't match Plural-Forms.nplural") else mret tt)
         (fun _ => dict_add cf2 (AddPlural ctxt id mp (fst r))))
       else mret tt)))).
    eapply rel_bind; [apply rel_msgstr_loop, Hf| |mono|mono].
    intros r ? <-. eapply rel_bind; [apply rel_empty| |mono|mono]. intros e ? <-.
    destruct e; cbn [negb]; [|apply rel_error]. cbn [orb].
    destruct (snd r); cbn [andb]; [|apply rel_ret; reflexivity].
    eapply (rel_bind _ _ _ _ (fun _ _ => True)); [apply rel_get; auto| |mono|mono].
    intros d1 d2 _. eapply rel_bind; [apply rel_silent| |mono|mono].
    - apply silent_if; [apply silent_w1|apply silent_if; [apply silent_w1|apply silent_ret]].
    - apply silent_if; [apply silent_w1|apply silent_if; [apply silent_w1|apply silent_ret]].
    - intros. apply rel_add.
  Qed.

  Lemma rel_singular_entry z1 z2 ctxt id s1 s2 : R s1 s2 -> starts_with kw_str (p_cur s1) = true ->
    rpost eq (singular_entry cf1 fn1 true z1 ctxt id s1) (singular_entry cf2 fn2 true z2 ctxt id s2).
  Proof.
    intros HR Hp. unfold singular_entry.
    eapply rpost_bind; [eapply rel_get_string; [|exact HR|exact Hp]; simpl; tauto| |mono|mono].
    intros ms ? ? ? <- HR' _ _. cbn [orb]. rewrite !andb_true_r.
    destruct (is_nil id); [apply rel_parse_header, HR'|].
    destruct (is_nil ms); cbn [negb]; [apply (rel_ret _ _ eq); auto|].
    eapply rpost_bind; [apply rel_convert; exact HR'| |mono|mono].
    intros v ? ? ? <- HR'' _ _. apply rel_add, HR''.
  Qed.

  Lemma rel_entry z1 z2 : rel eq (entry cf1 fn1 true z1) (entry cf2 fn2 true z2).
  Proof.
    intros s1 s2 HR. unfold entry, prefix.
    rewrite !mget_bind. cbn [cf_iconv mkcf].
    destruct (R_obs _ _ HR) as (Hc & _).
    pose proof (C_prefix kw_ctxt _ _ Hc ltac:(simpl; tauto)) as Hp.
    unfold kw_ctxt in Hp. rewrite <- Hp.
    eapply (rpost_bind _ _ _ _ eq); [| |mono|mono].
    { destruct (starts_with (bs "msgctxt") (p_cur s1)) eqn:Ep.
      - eapply rpost_bind; [eapply rel_get_string; [|exact HR|exact Ep]; simpl; tauto| |mono|mono].
        intros c ? ? ? <- HR' _ _. apply (rel_ret _ _ eq); auto.
      - apply (rel_ret _ _ eq); auto. }
    clear Hp Hc. intros ctxt ? s1a s2a <- HRa _ _.
    rewrite !mget_bind. cbn [cf_iconv mkcf].
    destruct (R_obs _ _ HRa) as (Hc & _).
    pose proof (C_prefix kw_id _ _ Hc ltac:(simpl; tauto)) as Hp.
    unfold kw_id in Hp. rewrite <- Hp.
    eapply (rpost_bind _ _ _ _ eq); [| |mono|mono].
    { destruct (starts_with (bs "msgid") (p_cur s1a)) eqn:Ep.
      - eapply rel_get_string; [|exact HRa|exact Ep]; simpl; tauto.
      - apply rel_error, HRa. }
    clear Hp Hc. intros id ? s1b s2b <- HRb _ _.
    rewrite !mget_bind. cbn [cf_iconv mkcf].
    destruct (R_obs _ _ HRb) as (Hc & _).
    pose proof (C_prefix kw_plural _ _ Hc ltac:(simpl; tauto)) as Hp.
    unfold kw_plural in Hp. rewrite <- Hp.
    destruct (starts_with (bs "msgid_plural") (p_cur s1b)) eqn:Ep; [apply rel_plural_entry; auto|].
    rewrite !mget_bind. cbn [cf_iconv mkcf].
    pose proof (C_prefix kw_str _ _ Hc ltac:(simpl; tauto)) as Hp'.
    unfold kw_str in Hp'. rewrite <- Hp'.
    destruct (starts_with (bs "msgstr") (p_cur s1b)) eqn:Ep'; [apply rel_singular_entry; auto|].
    apply rel_error, HRb.
  Qed.

  Lemma rel_block_body : rel eq (block_body cf1 fn1) (block_body cf2 fn2).
  Proof.
    unfold block_body. eapply rel_bind; [apply rel_comments, Hf| |mono|mono].
    intros z1 z2 _. eapply rel_bind; [apply rel_empty| |mono|mono]. intros e ? <-.
    eapply (rel_bind _ _ _ _ eq); [destruct e; [apply rel_ret; reflexivity|apply rel_entry]| |mono|mono].
    intros _ _ _. eapply rel_bind; [apply rel_empty| |mono|mono]. intros e' ? <-.
    destruct e'; [apply rel_ret; reflexivity|apply rel_error].
  Qed.

  Lemma rel_block : rel eq (block cf1 fn1 true) (block cf2 fn2 true).
  Proof.
    intros s1 s2 HR. rewrite !block_eq. apply rel_bind with (V := eq); auto using rel_block_body; try mono.
    intros. apply rel_next.
  Qed.

  Lemma rel_try : rel eq (try_block cf1 fn1 true) (try_block cf2 fn2 true).
  Proof.
    intros s1 s2 HR. pose proof (rel_block s1 s2 HR) as H. unfold try_block, rpost in *.
    destruct (block cf1 fn1 true s1) as [o1 s1'], (block cf2 fn2 true s2) as [o2 s2']. simpl in H.
    destruct H as [[Ho HR']|[[-> HE]|HE]].
    - left. destruct o1 as [?|[]|?| |], o2 as [?|[]|?| |]; simpl in *; try contradiction; try discriminate; auto.
    - right; left. split; [reflexivity|]. simpl. destruct o2 as [?|[]|?| |]; exact HE.
    - right; right. destruct o1 as [?|[]|?| |], o2 as [?|[]|?| |]; exact HE.
  Qed.

  Lemma rel_loop g1 : forall g2, g1 <= g2 -> rel eq (parse_loop cf1 fn1 true g1) (parse_loop cf2 fn2 true g2).
  Proof.
    induction g1 as [|g1 IH]; intros g2 Hg; [apply rel_fuel; mono|].
    destruct g2 as [|g2]; [lia|]. cbn [parse_loop].
    eapply (rel_bind _ _ _ _ eq); [apply rel_get; intros; apply R_obs; auto| |mono|mono].
    intros e ? <-. destruct e; [apply rel_ret; reflexivity|].
    eapply rel_bind; [apply rel_try| |mono|mono]. intros. apply IH. lia.
  Qed.

  Lemma rel_parse : rel eq (parse_member cf1 fn1 true) (parse_member cf2 fn2 true).
  Proof.
    unfold parse_member. eapply rel_bind; [apply rel_next| | |].
    - intros _ _ _. eapply (rel_bind _ _ _ _ eq); [| |mono|mono].
      + intros s1 s2 HR. left. destruct (R_obs _ _ HR) as (Hc & _).
        unfold mmod. cbn [fst snd cf_iconv mkcf]. rewrite <- (C_bom _ _ Hc). split; [reflexivity|].
        destruct (starts_with bom (p_cur s1)) eqn:Eb; auto.
      + intros. apply rel_loop. exact Hf.
    - intros _. apply mono_bind; [|mono]. intro s. simpl. destruct (starts_with _ _); exact (ext_refl _ s).
    - intros _. apply mono_bind; [|mono]. intro s. simpl. destruct (starts_with _ _); exact (ext_refl _ s).
  Qed.
End Rel.
