(** POParser::parse on the documents of Spec/PoSpec.v. *)
From Verif.Model Require Import Base Log PluralForms Dictionary IConv Stream PoParser.
From Verif.Spec Require Import ParserSpec PoSpec.
From Verif.Proofs Require Import BaseFacts DictProofs LexProofs ParserUnary DocLex ParserRel ParserSafe ParserFuel ParserLocal
  ParserCut ParserBlank ParserTerm ParserLinewise ParserMisc.
Local Open Scope list_scope.

(** ** plural vectors *)
Definition put_all (v : list bytes) (vs : list (nat * bytes)) : list bytes :=
  fold_left (fun v r => vec_put v (fst r) (snd r)) vs v.

Lemma vec_put_length : forall n v x, length (vec_put v n x) = Nat.max (length v) (S n).
Proof. induction n as [|n IH]; intros [|y v] x; cbn [vec_put length]; rewrite ?IH; cbn [length]; try lia. Qed.
Lemma vec_put_nth : forall n v x i, nth i (vec_put v n x) [] = if n =? i then x else nth i v [].
Proof.
  induction n as [|n IH]; intros [|y v] x [|i]; cbn [vec_put nth Nat.eqb]; auto.
  - destruct i; reflexivity.
  - rewrite IH. destruct i; destruct (n =? _); reflexivity.
Qed.
Lemma put_all_length vs : forall v, length (put_all v vs) = fold_left (fun m n => Nat.max m (S n)) (List.map fst vs) (length v).
Proof.
  induction vs as [|[n x] vs IH]; intro v; [reflexivity|]. cbn [put_all fold_left List.map fst snd]. fold (put_all (vec_put v n x) vs).
  rewrite IH, vec_put_length. reflexivity.
Qed.
Lemma put_all_nth vs : forall v i, nth i (put_all v vs) [] = if existsb (fun r => fst r =? i) vs then form i vs else nth i v [].
Proof.
  induction vs as [|[n x] vs IH]; intros v i; [reflexivity|]. cbn [put_all fold_left fst snd]. fold (put_all (vec_put v n x) vs).
  rewrite IH, vec_put_nth. cbn [existsb form fst]. destruct (existsb (fun r => fst r =? i) vs) eqn:E.
  - rewrite orb_true_r, andb_false_r. reflexivity.
  - rewrite orb_false_r. cbn [negb]. rewrite andb_true_r. destruct (n =? i) eqn:En; reflexivity.
Qed.
Lemma fold_max_eq l : forall m, fold_left (fun m n => Nat.max m (S n)) l m =
  match l with [] => m | _ => Nat.max m (S (list_max l)) end.
Proof.
  induction l as [|n l IH]; intro m; [reflexivity|]. cbn [fold_left]. rewrite IH. destruct l as [|n' l].
  - simpl. lia.
  - change (list_max (n :: n' :: l)) with (Nat.max n (list_max (n' :: l))). lia.
Qed.
Lemma form_none i vs : existsb (fun r : nat * bytes => fst r =? i) vs = false -> form i vs = [].
Proof.
  induction vs as [|[n x] vs IH]; [reflexivity|]. cbn [existsb form fst]. intro H. apply orb_false_iff in H as [H1 H2].
  rewrite H1. cbn [andb]. auto.
Qed.
Lemma put_all_forms vs : vs <> [] -> put_all [] vs = forms vs.
Proof.
  intro H. apply (nth_ext _ _ [] []).
  - rewrite put_all_length, fold_max_eq. unfold forms. rewrite map_length, seq_length.
    destruct vs as [|[n x] vs]; [congruence|]. cbn [List.map length]. lia.
  - intros i Hi. rewrite put_all_nth. unfold forms.
    rewrite put_all_length, fold_max_eq in Hi. destruct vs as [|r vs]; [congruence|]. set (L := r :: vs) in *.
    assert (Hi' : i < S (list_max (List.map fst L))) by (unfold L in *; cbn [List.map length] in Hi; cbn [List.map]; lia).
    rewrite (nth_indep (List.map (fun i => form i L) _) [] (form 0 L)) by (rewrite map_length, seq_length; exact Hi').
    rewrite (map_nth (fun i => form i L)). rewrite seq_nth by exact Hi'. cbn [plus].
    destruct (existsb _ L) eqn:E; [reflexivity|]. rewrite (form_none _ _ E). destruct i; reflexivity.
Qed.

(** ** digits *)
Lemma digit_facts n : n < 10 -> isdigit (digit_of n) = true /\ hi (digit_of n) = false /\ digit_of n <> c_lf /\
  N.to_nat (code (digit_of n) - 48) = n.
Proof.
  intro H. do 10 (destruct n as [|n]; [vm_compute; repeat split; discriminate|]). lia.
Qed.

Section Doc.
  Variable cf : config.
  Variable fn : bytes.
  Local Notation I := (cf_iconv cf).
  Local Notation P := (M (pst I)).
  Local Notation st := (cf_strict cf).
  Local Open Scope mon_scope.

  (** ** Positions in a file: the lines [ls] are still to be read, the first of them
      being the current line; [t] is the unterminated last line ([] if there is none) *)
  Definition pos (t : bytes) (ls : list bytes) (s : pst I) : Prop :=
    Forall one_line ls /\ one_line t /\
    match ls with
    | l :: ls' => p_cur s = l /\ p_in s = stream_of (unlines ls' ++ t) /\ p_eof s = false
    | [] => p_cur s = t /\ is_good (p_in s) = false /\ p_eof s = is_nil t
    end.
  Definition sees (t : bytes) (ls : list bytes) (c : iconv I) (b5 : bool) (cs : bytes) (k : list dict_call) (s : pst I) : Prop :=
    pos t ls s /\ p_conv s = c /\ p_big5 s = b5 /\ d_charset (p_dict s) = cs /\ p_calls s = k.

  Lemma pos_cur t ls s : pos t ls s -> p_cur s = hd t ls.
  Proof. intros (_ & _ & H). destruct ls; apply H. Qed.
  Lemma pos_next t l ls s : pos t (l :: ls) s -> pos t ls (nextst s).
  Proof.
    intros (H1 & H2 & H3 & H4 & H5). inversion H1 as [|? ? Ha Hb]; subst. split; [assumption|]. split; [exact H2|]. unfold nextst. rewrite H4.
    destruct ls as [|l' ls].
    - cbn [unlines app]. destruct t as [|x t].
      + cbn. auto.
      + rewrite getline_last by (auto; discriminate). cbn. auto.
    - cbn [unlines]. rewrite <- app_assoc. cbn [app]. inversion Hb; subst. rewrite getline_line by assumption. cbn. auto.
  Qed.
  Lemma pos_next_end s : pos [] [] s -> pos [] [] (nextst s).
  Proof.
    intros (H1 & H2 & H3 & H4 & H5). split; [assumption|]. split; [exact H2|].
    unfold nextst. rewrite (getline_bad _ _ H4). cbn. unfold is_good. cbn. rewrite andb_false_r. auto.
  Qed.
  Lemma pos_tl t ls s : (ls = [] -> t = []) -> pos t ls s -> pos t (tl ls) (nextst s).
  Proof. destruct ls as [|l ls]; intros H Hp; [rewrite (H eq_refl) in *; now apply pos_next_end|]. now apply pos_next in Hp. Qed.

  Ltac sv := cbn [st_tr st_dict st_conv st_big5 st_cur st_line p_in p_dict p_eof p_big5 p_line p_cur p_conv p_tr p_calls] in *.
  Lemma sees_pos t ls ls' c b5 cs k s s' : sees t ls c b5 cs k s -> pos t ls' s' -> s' = nextst s -> sees t ls' c b5 cs k s'.
  Proof.
    intros (_ & H1 & H2 & H3 & H4) Hp ->. split; [exact Hp|]. nx s. rewrite Nv, Nb, Nd, Nc. auto.
  Qed.
  Lemma sees_next t l ls c b5 cs k s : sees t (l :: ls) c b5 cs k s -> sees t ls c b5 cs k (nextst s).
  Proof. intro H. eapply sees_pos; [exact H| |reflexivity]. eapply pos_next, H. Qed.
  Lemma sees_tl t ls c b5 cs k s : (ls = [] -> t = []) -> sees t ls c b5 cs k s -> sees t (tl ls) c b5 cs k (nextst s).
  Proof. intros He H. eapply sees_pos; [exact H| |reflexivity]. apply pos_tl; [exact He|apply H]. Qed.
  Lemma sees_cur t ls c b5 cs k s : sees t ls c b5 cs k s -> p_cur s = hd t ls.
  Proof. intros [H _]. now apply pos_cur. Qed.
  Lemma sees_tr t ls c b5 cs k s tr : sees t ls c b5 cs k s -> sees t ls c b5 cs k (st_tr s tr).
  Proof. intro H. exact H. Qed.
  Lemma sees_warn t ls c b5 cs k ws : forall s, sees t ls c b5 cs k s -> sees t ls c b5 cs k (warned_all cf fn ws s).
  Proof. induction ws as [|w ws IH]; intros s H; [exact H|]. cbn [warned_all]. apply IH. exact H. Qed.

  (** ** Results up to running out of fuel *)
  Definition ok {A} (r : outcome A * pst I) (Q : outcome A -> pst I -> Prop) : Prop :=
    fst r = OutOfFuel \/ Q (fst r) (snd r).
  Definition gets {A} (r : outcome A * pst I) (a : A) (S : pst I -> Prop) : Prop :=
    ok r (fun o s' => o = Ret a /\ S s').
  Lemma gets_ret {A} (a : A) s (S : pst I -> Prop) : S s -> gets (Ret a, s) a S.
  Proof. intro H. right. split; auto. Qed.
  Lemma bind_gets {A B} (m : P A) (f : A -> P B) s a (S : pst I -> Prop) Q :
    gets (m s) a S -> (forall s', S s' -> ok (f a s') Q) -> ok (mbind m f s) Q.
  Proof.
    intros [H|[H HS]] Hf; unfold mbind; destruct (m s) as [o s']; cbn [fst snd] in *; subst.
    - left. reflexivity.
    - apply Hf, HS.
  Qed.
  Lemma ok_mono {A} (r : outcome A * pst I) (Q Q' : outcome A -> pst I -> Prop) :
    ok r Q -> (forall o s, Q o s -> Q' o s) -> ok r Q'.
  Proof. intros [H|H] K; [left; exact H|right; auto]. Qed.

  (** the state after a failure that ends the parse *)
  Definition fails {A} (r : outcome A * pst I) (o : outcome unit) (k : list dict_call) : Prop :=
    ok r (fun o' s' => omap (fun _ => tt) o' = o /\ p_calls s' = k).
  Lemma bind_gets_fails {A B} (m : P A) (f : A -> P B) s a (S : pst I -> Prop) o k :
    gets (m s) a S -> (forall s', S s' -> fails (f a s') o k) -> fails (mbind m f s) o k.
  Proof. intros G H. unfold fails. eapply bind_gets; [exact G|exact H]. Qed.
  Lemma bind_gets_gets {A B} (m : P A) (f : A -> P B) s a (S : pst I -> Prop) b (S' : pst I -> Prop) :
    gets (m s) a S -> (forall s', S s' -> gets (f a s') b S') -> gets (mbind m f s) b S'.
  Proof. intros G H. unfold gets. eapply bind_gets; [exact G|exact H]. Qed.
  Lemma bind_fails {A B} (m : P A) (f : A -> P B) s o k :
    o <> Ret tt -> fails (m s) o k -> fails (mbind m f s) o k.
  Proof.
    intros Hn [H|[H Hk]]; unfold mbind; destruct (m s) as [o' s']; cbn [fst snd] in *.
    - subst. left. reflexivity.
    - destruct o' as [a| | | |]; cbn [omap] in H; try (right; split; [exact H|exact Hk]; fail). congruence.
  Qed.

  (** ** Literals *)
  Definition stops (l : bytes) : Prop := pquote st 0 l = Some None.

  Lemma continuation_chunks t rest c b5 cs k more : forall f out l0 s,
    sees t (l0 :: List.map chunk_text more ++ rest) c b5 cs k s -> Forall (chunk_ok st b5) more -> stops (hd t rest) ->
    gets (continuation cf fn f out s) (out ++ List.concat (List.map chunk_value more)) (sees t rest c b5 cs k).
  Proof.
    induction more as [|ck more IH]; intros f out l0 s H Hm Hs; (destruct f as [|f]; [left; reflexivity|]).
    - cbn [List.map app] in H. apply sees_next in H. rewrite continuation_stop.
      + cbn [List.map List.concat]. rewrite app_nil_r. apply gets_ret. exact H.
      + rewrite (sees_cur _ _ _ _ _ _ _ H). exact Hs.
    - inversion Hm; subst. cbn [List.map app] in H. apply sees_next in H. pose proof (sees_cur _ _ _ _ _ _ _ H) as Hc. cbn [hd] in Hc.
      cbn [continuation]. unfold mbind at 1. rewrite next_line_eq, mget_bind. unfold mbind at 1. rewrite find_quote_eq, Hc.
      rewrite (pquote_chunk st b5) by assumption. cbn [run_opt]. unfold mret at 1; cbv beta iota.
      assert (W : forall s2, sees t (chunk_text ck :: List.map chunk_text more ++ rest) c b5 cs k s2 ->
         gets (mbind (get_string_line cf fn out (length (ck_lead ck))) (continuation cf fn f) s2)
           (out ++ List.concat (List.map chunk_value (ck :: more))) (sees t rest c b5 cs k)).
      { intros s2 H'. unfold mbind. rewrite get_string_line_eq, run_lex_eq, (sees_cur _ _ _ _ _ _ _ H'). cbn [hd].
        replace (p_big5 s2) with b5 by (symmetry; apply H').
        destruct (pline_chunk_text st b5 out ck H2) as [ws ->].
        cbn [List.map List.concat]. rewrite app_assoc. eapply IH; [|assumption|assumption]. apply sees_warn, H'. }
      unfold mbind at 1. destruct (_ && _); apply W; exact H.
  Qed.

  Lemma get_literal kw skip t rest c b5 cs k l s :
    skip = length kw ->
    sees t (lit_lines kw l ++ rest) c b5 cs k s -> lit_ok st b5 l -> stops (hd t rest) ->
    gets (get_string cf fn skip s) (lit_value l) (sees t rest c b5 cs k).
  Proof.
    intros -> H Hl Hs. inversion Hl as [|? ? H1 H2]; subst. rewrite get_string_eq. unfold mbind. rewrite run_lex_eq.
    rewrite (sees_cur _ _ _ _ _ _ _ H). cbn [lit_lines app hd]. replace (p_big5 s) with b5 by (symmetry; apply H).
    destruct (pfirst_chunk st (cf_pedantic cf) b5 kw (lt_head l) H1) as [ws ->].
    unfold lit_value. cbn [List.map List.concat]. eapply continuation_chunks; [|assumption|assumption].
    apply sees_warn. exact H.
  Qed.

  (** ** Comments *)
  Lemma comments_block t rest c b5 cs k cm : forall f b s,
    sees t (cm ++ rest) c b5 cs k s -> Forall is_comment cm -> starts_with [c_hash] (hd t rest) = false ->
    ok (comments cf f b s) (fun o s' => exists fz, o = Ret fz /\ sees t rest c b5 cs k s').
  Proof.
    induction cm as [|l cm IH]; intros f b s H Hc Hn; (destruct f as [|f]; [left; reflexivity|]); cbn [comments]; unfold prefix;
      rewrite mget_bind, (sees_cur _ _ _ _ _ _ _ H); cbn [app hd].
    - cbn [app] in H. rewrite Hn. right. exists b. split; [reflexivity|exact H].
    - inversion Hc as [|? ? (l' & -> & Hl') Hc']; subst. change (starts_with [c_hash] (c_hash :: l')) with (bytes_eqb [c_hash] [c_hash]).
      rewrite bytes_eqb_refl. rewrite mget_bind. unfold mbind. rewrite next_line_eq. apply IH; auto.
      cbn [app] in H. eapply sees_next, H.
  Qed.

  (** ** The header *)
  Lemma clean_app strict a b : clean strict (a ++ b) -> clean strict a /\ clean strict b.
  Proof. unfold clean. rewrite existsb_app. intro H. split; intro E; specialize (H E); apply orb_false_iff in H; apply H. Qed.
  Lemma clean_skipn strict n l : clean strict l -> clean strict (skipn n l).
  Proof. intro H. rewrite <- (firstn_skipn n l) in H. now apply clean_app in H. Qed.
  Lemma clean_hi strict l : clean strict l -> strict && existsb hi l = false.
  Proof. intro H. destruct strict; [cbn; now apply H|reflexivity]. Qed.
  Lemma from_string_clean strict l : clean strict l -> from_string strict l = from_string false l.
  Proof. intro H. unfold from_string. rewrite (clean_hi _ _ H). reflexivity. Qed.
  Lemma toupper_hi c : hi (toupper c) = hi c.
  Proof. apply eqb_prop. exact (forall_bytes (fun c => Bool.eqb (hi (toupper c)) (hi c)) eq_refl c). Qed.
  Lemma clean_toupper strict l : clean strict l -> clean strict (List.map toupper l).
  Proof.
    unfold clean. intros H E. specialize (H E). induction l as [|c l IH]; [reflexivity|]. cbn in *. apply orb_false_iff in H as [H1 H2].
    rewrite toupper_hi, H1. cbn. auto.
  Qed.

  Definition ct_full : bytes := bs "Content-Type: text/plain; charset=".
  Lemma full_prefix l : starts_with ct_full l = true -> starts_with content_type l = true.
  Proof.
    intro H. apply starts_with_spec in H as [u ->]. change (ct_full ++ u) with (content_type ++ bs " text/plain; charset=" ++ u).
    apply starts_with_app.
  Qed.
  Lemma ct_not_plural l : starts_with content_type l = true -> starts_with plural_forms_key l = false.
  Proof. intro H. apply starts_with_spec in H as [u ->]. reflexivity. Qed.

  Lemma header_line_ok t ls c b5 cs k line charset s :
    sees t ls c b5 cs k s -> clean st line ->
    gets (header_line cf fn line charset s)
      (match after ct_full line with Some x => List.map toupper x | None => charset end)
      (sees t ls c b5 cs (k ++ List.map CallPlural (hdr_plural line))).
  Proof.
    intros H Hc. unfold header_line, after, hdr_plural. change (bs "Plural-Forms:") with plural_forms_key.
    assert (E0 : k ++ List.map CallPlural [] = k) by apply app_nil_r.
    destruct (starts_with content_type line) eqn:E1.
    - rewrite (ct_not_plural _ E1). fold ct_full. change content_type_full with ct_full.
      destruct (starts_with ct_full line) eqn:E2.
      + rewrite (clean_hi _ _ (clean_skipn _ (length ct_full) _ Hc)). apply gets_ret. rewrite E0. exact H.
      + unfold mbind. rewrite warning_eq. apply gets_ret. rewrite E0. exact H.
    - destruct (starts_with ct_full line) eqn:E2; [apply full_prefix in E2; congruence|].
      destruct (starts_with plural_forms_key line).
      2: { apply gets_ret. rewrite E0. exact H. }
      unfold mbind at 1, mlift. rewrite (from_string_clean _ _ Hc).
      assert (F : exists p, from_string false line = Ret p) by (unfold from_string; cbn [andb]; destruct (assoc _ _); eauto).
      destruct F as [p ->]. cbv beta iota. unfold mbind at 1. destruct (pf_valid p) eqn:Ep; cbn [negb].
      2: { rewrite warning_eq. apply gets_ret. rewrite E0. exact H. }
      rewrite mget_bind. unfold mbind at 1.
      assert (W : forall s2, sees t ls c b5 cs k s2 ->
        gets (let (o, s') := dict_call_ cf (CallPlural p) s2 in
              match o with
              | Ret _ => mret charset s' | Exn e => (Exn e, s') | Ub u => (Ub u, s') | AssertFail => (AssertFail, s') | OutOfFuel => (OutOfFuel, s') end)
             charset (sees t ls c b5 cs (k ++ [CallPlural p]))).
      { intros s2 (H1 & H2 & H3 & H4 & H5). unfold dict_call_, mmod. apply gets_ret. unfold sees, pos in *. sv. split; [exact H1|].
        split; [exact H2|]. split; [exact H3|]. split; [|now rewrite H5]. cbn [apply_call]. destruct (pf_valid (get_plural_forms (p_dict s2))); exact H4. }
      destruct (pf_valid (get_plural_forms (p_dict s))).
      + destruct (negb _).
        * rewrite warning_eq. apply W. exact H.
        * apply W. exact H.
      + apply W. exact H.
  Qed.

  Lemma header_loop_ok t ls c b5 cs h : forall acc charset k s,
    sees t ls c b5 cs k s -> clean st (acc ++ h) ->
    gets (header_loop cf fn h acc charset s)
      (match last_some (after ct_full) (hdr_lines_from acc h) with Some x => List.map toupper x | None => charset end)
      (sees t ls c b5 cs (k ++ List.map CallPlural (List.concat (List.map hdr_plural (hdr_lines_from acc h))))).
  Proof.
    induction h as [|x h IH]; intros acc charset k s H Hc; cbn [header_loop hdr_lines_from].
    - apply gets_ret. cbn. rewrite app_nil_r. exact H.
    - destruct (byte_eqb x c_lf).
      + cbn [last_some List.map List.concat]. apply clean_app in Hc as [Hc1 Hc2].
        eapply bind_gets; [apply (header_line_ok t ls c b5 cs k acc charset s H Hc1)|].
        intros s' H'. eapply ok_mono; [apply (IH [] _ _ s' H')|].
        * apply (clean_app st [x] h) in Hc2. apply Hc2.
        * intros o s2 [-> H2]. split.
          -- destruct (last_some (after ct_full) (hdr_lines_from [] h)); reflexivity.
          -- rewrite map_app, app_assoc. exact H2.
      + apply IH; [exact H|]. rewrite <- app_assoc. exact Hc.
  Qed.

  Lemma last_some_app_clean strict h : forall acc x, clean strict (acc ++ h) ->
    last_some (after ct_full) (hdr_lines_from acc h) = Some x -> clean strict x.
  Proof.
    induction h as [|c h IH]; intros acc x Hc; cbn [hdr_lines_from]; [discriminate|].
    destruct (byte_eqb c c_lf).
    - cbn [last_some]. apply clean_app in Hc as [Hc1 Hc2]. apply (clean_app strict [c] h) in Hc2 as [_ Hc2].
      destruct (last_some _ _) eqn:E.
      + intro X. inversion X; subst. eapply (IH []); [exact Hc2|exact E].
      + unfold after. destruct (starts_with _ _); [|discriminate]. intro X. injection X as X. rewrite <- X. exact (clean_skipn strict (length ct_full) _ Hc1).
    - apply IH. rewrite <- app_assoc. exact Hc.
  Qed.
  Lemma hdr_charset_clean strict h : clean strict h -> clean strict (hdr_charset h).
  Proof.
    intro Hc. unfold hdr_charset. fold ct_full. destruct (last_some _ _) as [x|] eqn:E; [|intro; reflexivity].
    apply (last_some_app_clean strict h [] x Hc) in E. destruct (_ || _); [intro; reflexivity|]. now apply clean_toupper.
  Qed.

  Lemma parse_header_ok t ls c b5 cs k h s :
    sees t ls c b5 cs k s -> clean st h -> clean st cs ->
    let '(o, c', _) := set_charsets false c (hdr_charset h) cs in
    ok (parse_header cf fn h s) (fun o' s' => o' = o /\
       sees t ls c' (b5 || bytes_eqb (hdr_charset h) (bs "BIG5")) cs (k ++ List.map CallPlural (hdr_plurals h)) s').
  Proof.
    intros H Hc Hcs. destruct (set_charsets false c (hdr_charset h) cs) as [[o c'] ev] eqn:Es.
    unfold parse_header. eapply bind_gets; [apply (header_loop_ok t ls c b5 cs h [] [] k s H Hc)|].
    intros s1 H1. fold (hdr_lines h) in *. fold (hdr_plurals h) in H1. set (k' := k ++ List.map CallPlural (hdr_plurals h)) in *.
    set (x := match last_some (after ct_full) (hdr_lines h) with Some x => List.map toupper x | None => [] end).
    assert (X : hdr_charset h = if is_nil x || bytes_eqb x (bs "CHARSET") then bs "UTF-8" else x).
    { unfold hdr_charset. fold ct_full. unfold x. destruct (last_some _ _); reflexivity. }
    assert (G : gets ((if is_nil x || bytes_eqb x (bs "CHARSET") then
                   warning cf fn (bs "charset not specified for .po, fallback to utf-8");; mret (bs "UTF-8")
                 else if bytes_eqb x (bs "BIG5") then mmod (fun s => st_big5 s true);; mret x else mret x) s1)
              (hdr_charset h) (sees t ls c (b5 || bytes_eqb (hdr_charset h) (bs "BIG5")) cs k')).
    { rewrite X. destruct (is_nil x || bytes_eqb x (bs "CHARSET")) eqn:E1.
      - unfold mbind. rewrite warning_eq. apply gets_ret. change (bytes_eqb (bs "UTF-8") (bs "BIG5")) with false. rewrite orb_false_r. exact H1.
      - destruct (bytes_eqb x (bs "BIG5")).
        + unfold mbind, mmod. apply gets_ret. rewrite orb_true_r. destruct H1 as (G1 & G2 & G3 & G4 & G5). unfold sees, pos in *. sv. auto.
        + apply gets_ret. rewrite orb_false_r. exact H1. }
    eapply bind_gets; [exact G|]. intros s2 H2. rewrite mget_bind.
    unfold do_set_charsets. destruct H2 as (G1 & G2 & G3 & G4 & G5). unfold get_charset. rewrite G2, G4.
    assert (E2 : set_charsets st c (hdr_charset h) cs = set_charsets false c (hdr_charset h) cs).
    { unfold set_charsets. assert (E : st && (existsb hi cs || existsb hi (hdr_charset h)) = false).
      { destruct st eqn:Est; [|reflexivity]. cbn [andb]. rewrite (Hcs eq_refl). cbn [orb]. exact (hdr_charset_clean true h Hc eq_refl). }
      rewrite E. reflexivity. }
    rewrite E2, Es. right. cbn [fst snd]. split; [reflexivity|]. unfold sees, pos in *. sv. auto.
  Qed.

  (** ** Keyword lines *)
  Lemma hd_app {A} (d d' : A) (x : A) l r : hd d ((x :: l) ++ r) = hd d' ((x :: l) ++ r).
  Proof. reflexivity. Qed.
  Lemma chunk_head ck strict b5 : chunk_ok strict b5 ck -> exists x r, chunk_text ck = x :: r /\ (isspace x = true \/ x = c_dq).
  Proof.
    intros (Hw & _). unfold chunk_text. destruct (ck_lead ck) as [|x w].
    - do 2 eexists. split; [reflexivity|]. right. reflexivity.
    - inversion Hw; subst. do 2 eexists. split; [reflexivity|]. left. assumption.
  Qed.
  Lemma id_not_plural strict b5 l t rest : lit_ok strict b5 l ->
    starts_with (bs "msgid_plural") (hd t (lit_lines (bs "msgid") l ++ rest)) = false.
  Proof.
    intro H. inversion H; subst. destruct (chunk_head _ _ _ H2) as (x & r & E & Hx). cbn [lit_lines app hd]. rewrite E.
    apply not_true_iff_false. intro K. apply starts_with_spec in K as [u K]. cbn in K. inversion K; subst x.
    destruct Hx as [Hx|Hx]; vm_compute in Hx; discriminate.
  Qed.

  Lemma lit_hd kw l t rest : starts_with kw (hd t (lit_lines kw l ++ rest)) = true.
  Proof. cbn [lit_lines app hd]. apply starts_with_app. Qed.
  Lemma msg_stops l : starts_with (bs "msg") l = true -> stops l.
  Proof. intro H. apply (pquote_letter st l H). Qed.
  Lemma kw_msg kw l t rest : starts_with (bs "msg") kw = true -> starts_with (bs "msg") (hd t (lit_lines kw l ++ rest)) = true.
  Proof.
    intro H. apply starts_with_spec in H as [u ->]. cbn [lit_lines app hd]. rewrite <- app_assoc. apply starts_with_app.
  Qed.

  (** ** Plural rows *)
  Lemma row_stops r t rest : stops (hd t (row_lines r ++ rest)).
  Proof. apply msg_stops. unfold row_lines. apply kw_msg. reflexivity. Qed.
  Lemma rows_stop rows t rest : stops (hd t rest) -> stops (hd t (List.concat (List.map row_lines rows) ++ rest)).
  Proof.
    intro H. destruct rows as [|r rows]; [exact H|]. cbn [List.map List.concat]. rewrite <- app_assoc. apply row_stops.
  Qed.
  Lemma row_first n ck : n < 10 -> pmsgstr_n st ((bs "msgstr[" ++ [digit_of n; c_rbr]) ++ chunk_text ck) = Some true.
  Proof.
    intro H. destruct (digit_facts n H) as (H1 & H2 & _). unfold pmsgstr_n.
    rewrite <- app_assoc. rewrite starts_with_app. cbn [app bs list_ascii_of_string length].
    change (8 <? _) with true. cbn [andb nth]. unfold pctype. rewrite H2, andb_false_r, H1. reflexivity.
  Qed.

  Lemma convert_cases nd (c : iconv I) x : (exists v c' ev, convert nd c x = (Ret v, c', ev)) \/
    (exists c' ev, convert nd c x = (AssertFail, c', ev)) \/ (exists c' ev, convert nd c x = (Ub UbIconv, c', ev)).
  Proof.
    unfold convert. destruct (cv_cd c) as [| |id stt]; [left; eauto|right; right; eauto|].
    destruct (ic_conv I stt x (4 * length x)) as [[s' out] [e|]]; [|left; eauto].
    destruct e; try (left; eauto; fail); destruct nd; eauto 10.
  Qed.

  Ltac bg := match goal with
    | |- gets _ _ _ => eapply bind_gets_gets
    | |- fails _ _ _ => eapply bind_gets_fails
    | |- _ => eapply bind_gets
    end.
  Lemma rows_ok t rest b5 cs k rows : is_blank (hd t rest) -> forall f num ne c s,
    sees t (List.concat (List.map row_lines rows) ++ rest) c b5 cs k s ->
    Forall (fun r => fst r < 10 /\ lit_ok st b5 (snd r)) rows -> (num <> [] \/ rows <> []) ->
    match convert_rows (cf_ndebug cf) c rows with
    | (Ret vs, c') =>
        gets (msgstr_loop cf fn f num ne s)
             (put_all num vs, ne || negb (forallb (fun r => is_nil (lit_value (snd r))) rows)) (sees t rest c' b5 cs k)
    | (o, c') => fails (msgstr_loop cf fn f num ne s) (omap (fun _ => tt) o) k
    end.
  Proof.
    intro Hb. induction rows as [|[n l] rows IH]; intros f num ne c s H Hr Hn; (destruct f as [|f]; [|]).
    - left. reflexivity.
    - cbn [convert_rows msgstr_loop List.map List.concat app] in *. unfold mbind at 1. rewrite is_empty_line_eq.
      rewrite (sees_cur _ _ _ _ _ _ _ H), (pempty_blank st _ Hb). cbn [run_opt]. unfold mret at 1; cbv beta iota.
      destruct num as [|x num]; [destruct Hn as [Hn|Hn]; congruence|]. cbn [is_nil forallb negb].
      rewrite orb_false_r. apply gets_ret. exact H.
    - destruct (convert_rows _ _ _) as [[?|?|?| |] ?]; left; reflexivity.
    - inversion Hr as [|? ? [Hd Hl] Hr']; subst. cbn [fst snd] in *. cbn [List.map List.concat] in H. rewrite <- app_assoc in H.
      cbn [convert_rows].
      inversion Hl as [|? ? Hck Hmore]; subst.
      pose proof (row_first n (lt_head l) Hd) as Hp.
      assert (Hc : p_cur s = (bs "msgstr[" ++ [digit_of n; c_rbr]) ++ chunk_text (lt_head l)) by apply (sees_cur _ _ _ _ _ _ _ H).
      assert (Hnum : N.to_nat (code (nth 7 ((bs "msgstr[" ++ [digit_of n; c_rbr]) ++ chunk_text (lt_head l)) c_nul) - 48) = n).
      { rewrite <- app_assoc. cbn [app bs list_ascii_of_string nth]. apply digit_facts, Hd. }
      assert (EQ : msgstr_loop cf fn (S f) num ne s =
         mbind (get_string cf fn 9) (fun msgstr => v <- do_convert cf msgstr;;
              msgstr_loop cf fn f (vec_put num n v) (ne || negb (is_nil msgstr))) s).
      { cbn [msgstr_loop]. unfold mbind at 1. rewrite is_empty_line_eq.
        rewrite Hc, (pmsgstr_not_empty _ _ Hp). cbn [run_opt]. unfold mret at 1; cbv beta iota.
        unfold mbind at 1. rewrite is_msgstr_n_eq, Hc, Hp. cbn [run_opt]. unfold mret at 1; cbv beta iota.
        rewrite mget_bind, Hc. cbv zeta. rewrite Hnum. reflexivity. }
      rewrite EQ. clear EQ.
      pose proof (get_literal (bs "msgstr[" ++ [digit_of n; c_rbr]) 9 t (List.concat (List.map row_lines rows) ++ rest) c b5 cs k l s
                   eq_refl H Hl (rows_stop rows t rest (pquote_blank st _ Hb))) as G.
      destruct (convert_cases (cf_ndebug cf) c (lit_value l)) as [(v & c' & ev & Ec)|[(c' & ev & Ec)|(c' & ev & Ec)]]; rewrite Ec.
      + set (cont := fun s' => (v0 <- do_convert cf (lit_value l);;
               msgstr_loop cf fn f (vec_put num n v0) (ne || negb (is_nil (lit_value l)))) s').
        assert (K : forall s', sees t (List.concat (List.map row_lines rows) ++ rest) c b5 cs k s' ->
           exists s2, cont s' = msgstr_loop cf fn f (vec_put num n v) (ne || negb (is_nil (lit_value l))) s2 /\
                      sees t (List.concat (List.map row_lines rows) ++ rest) c' b5 cs k s2).
        { intros s' (H1 & H2 & H3 & H4 & H5). unfold cont, mbind, do_convert. rewrite H2, Ec. eexists. split; [reflexivity|].
          unfold sees, pos in *. sv. auto. }
        assert (Hnn : vec_put num n v <> [] \/ rows <> []).
        { left. intro E. apply (f_equal (@length _)) in E. rewrite vec_put_length in E. cbn [length] in E. lia. }
        cbn [forallb snd]. 
        specialize (IH f (vec_put num n v) (ne || negb (is_nil (lit_value l))) c').
        destruct (convert_rows (cf_ndebug cf) c' rows) as [o2 c2].
        destruct o2 as [vs|e|u| |]; cbn [omap] in *.
        * bg; [exact G|]. intros s' Hs'. destruct (K s' Hs') as (s2 & E & H2). fold (cont s'). rewrite E.
          specialize (IH s2 H2 Hr' Hnn). cbn [put_all fold_left fst snd]. fold (put_all (vec_put num n v) vs).
          rewrite negb_andb, orb_assoc. exact IH.
        * bg; [exact G|]. intros s' Hs'. destruct (K s' Hs') as (s2 & E & H2). fold (cont s'). rewrite E. apply (IH s2 H2 Hr' Hnn).
        * bg; [exact G|]. intros s' Hs'. destruct (K s' Hs') as (s2 & E & H2). fold (cont s'). rewrite E. apply (IH s2 H2 Hr' Hnn).
        * bg; [exact G|]. intros s' Hs'. destruct (K s' Hs') as (s2 & E & H2). fold (cont s'). rewrite E. apply (IH s2 H2 Hr' Hnn).
        * bg; [exact G|]. intros s' Hs'. destruct (K s' Hs') as (s2 & E & H2). fold (cont s'). rewrite E. apply (IH s2 H2 Hr' Hnn).
      + bg; [exact G|]. intros s' (H1 & H2 & H3 & H4 & H5). unfold mbind, do_convert. rewrite H2, Ec. right. split; [reflexivity|exact H5].
      + bg; [exact G|]. intros s' (H1 & H2 & H3 & H4 & H5). unfold mbind, do_convert. rewrite H2, Ec. right. split; [reflexivity|exact H5].
  Qed.

  (** ** Dictionary additions *)
  Lemma add_charset d op : d_charset (fst (add_translation d op)) = d_charset d.
  Proof.
    destruct op as [[?|] ? ?|[?|] ? ? ?]; simpl; unfold add_ctxt_singular, add_singular, add_ctxt_plural, add_plural;
      try destruct (put_singular _ _); try destruct (put_plural _ _); auto.
  Qed.
  Lemma dict_add_ok t ls c b5 cs k op s : sees t ls c b5 cs k s ->
    gets (dict_add cf op s) tt (sees t ls c b5 cs (k ++ [CallAdd op])).
  Proof.
    intros (H1 & H2 & H3 & H4 & H5). unfold dict_add. rewrite mget_bind. unfold emit. rewrite mmod_bind. unfold dict_call_, mmod.
    right. cbn [fst snd]. split; [reflexivity|]. unfold sees, pos in *. sv. split; [exact H1|]. split; [exact H2|]. split; [exact H3|].
    split; [|now rewrite H5]. cbn [apply_call]. rewrite add_charset. exact H4.
  Qed.

  (** ** Entries *)
  Definition entry_result {A} (r : outcome A * pst I) (a : A) t rest b5 cs k (m : outcome unit * iconv I * list dict_call) : Prop :=
    match m with
    | (Ret _, c', calls) => gets r a (sees t rest c' b5 cs (k ++ calls))
    | (o, _, calls) => fails r o (k ++ calls)
    end.

  Definition body_of (e : po_entry) (fz : bool) (ctxt : option bytes) (msgid : bytes) : P unit :=
    hp <- prefix cf (bs "msgid_plural");;
    if hp then plural_entry cf fn true fz ctxt msgid
    else hs <- prefix cf (bs "msgstr");;
         if hs then singular_entry cf fn true fz ctxt msgid else error cf fn (bs "expected 'msgstr' or 'msgid_plural'").

  (** what may follow an entry: after a msgstr, anything but a further string *)
  Definition follows (e : po_entry) (l : bytes) : Prop :=
    match en_body e with PoStr _ => stops l | PoPlural _ _ => is_blank l end.
  Lemma blank_follows e l : is_blank l -> follows e l.
  Proof. intro H. unfold follows. destruct (en_body e); [now apply pquote_blank|exact H]. Qed.

  Lemma body_ok_run e t rest c b5 cs k fz s :
    sees t (body_lines (en_body e) ++ rest) c b5 cs k s -> entry_ok st b5 e -> clean st cs -> follows e (hd t rest) ->
    entry_result (body_of e fz (opt_value (en_ctxt e)) (lit_value (en_id e)) s) tt t rest (big5_after b5 e) cs k
      (read_entry (cf_ndebug cf) cs c e).
  Proof.
    intros H (_ & _ & Hbd & Hh) Hcs Hb. unfold body_of, read_entry, big5_after, is_header, follows in *. unfold prefix at 1. rewrite mget_bind.
    rewrite (sees_cur _ _ _ _ _ _ _ H). destruct (en_body e) as [m|p rows]; cbn [body_lines body_ok] in *.
    - assert (E1 : starts_with (bs "msgid_plural") (hd t (lit_lines (bs "msgstr") m ++ rest)) = false).
      { cbn [lit_lines app hd]. reflexivity. }
      rewrite E1. unfold prefix. rewrite mget_bind, (sees_cur _ _ _ _ _ _ _ H), lit_hd. unfold singular_entry.
      pose proof (get_literal (bs "msgstr") 6 t rest c b5 cs k m s eq_refl H Hbd Hb) as G.
      destruct (is_nil (lit_value (en_id e))).
      + destruct (set_charsets false c (hdr_charset (lit_value m)) cs) as [[o c'] ev] eqn:Es.
        assert (K : forall s1, sees t rest c b5 cs k s1 -> ok (parse_header cf fn (lit_value m) s1) (fun o' s' => o' = o /\
          sees t rest c' (b5 || bytes_eqb (hdr_charset (lit_value m)) (bs "BIG5")) cs (k ++ List.map CallPlural (hdr_plurals (lit_value m))) s')).
        { intros s1 H1. pose proof (parse_header_ok t rest c b5 cs k (lit_value m) s1 H1 Hh Hcs) as K. rewrite Es in K. exact K. }
        unfold entry_result. destruct o as [[]|e0|u| |].
        * bg; [exact G|exact K].
        * bg; [exact G|]. intros s1 H1. eapply ok_mono; [exact (K s1 H1)|]. intros o' s' [-> H']. split; [reflexivity|apply H'].
        * bg; [exact G|]. intros s1 H1. eapply ok_mono; [exact (K s1 H1)|]. intros o' s' [-> H']. split; [reflexivity|apply H'].
        * bg; [exact G|]. intros s1 H1. eapply ok_mono; [exact (K s1 H1)|]. intros o' s' [-> H']. split; [reflexivity|apply H'].
        * bg; [exact G|]. intros s1 H1. eapply ok_mono; [exact (K s1 H1)|]. intros o' s' [-> H']. split; [reflexivity|apply H'].
      + destruct (is_nil (lit_value m)) eqn:Em.
        * bg; [exact G|]. intros s1 H1. rewrite Em. apply gets_ret. rewrite app_nil_r. exact H1.
        * destruct (convert_cases (cf_ndebug cf) c (lit_value m)) as [(v & c' & ev & Ec)|[(c' & ev & Ec)|(c' & ev & Ec)]]; rewrite Ec.
          -- bg; [exact G|]. intros s1 (H1 & H2 & H3 & H4 & H5). rewrite Em. cbn [negb andb orb]. unfold mbind at 1, do_convert. rewrite H2, Ec.
             apply dict_add_ok. unfold sees, pos in *. sv. auto.
          -- unfold entry_result. bg; [exact G|]. intros s1 (H1 & H2 & H3 & H4 & H5). rewrite Em. cbn [negb andb orb]. unfold mbind at 1, do_convert. rewrite H2, Ec. right. split; [reflexivity|]. sv. now rewrite app_nil_r.
          -- unfold entry_result. bg; [exact G|]. intros s1 (H1 & H2 & H3 & H4 & H5). rewrite Em. cbn [negb andb orb]. unfold mbind at 1, do_convert. rewrite H2, Ec. right. split; [reflexivity|]. sv. now rewrite app_nil_r.
    - destruct Hbd as (Hp & Hne & Hrows). rewrite <- app_assoc in H. rewrite <- app_assoc, lit_hd. unfold plural_entry.
      pose proof (get_literal (bs "msgid_plural") 12 t _ c b5 cs k p s eq_refl H Hp (rows_stop rows t rest (pquote_blank st _ Hb))) as G.
      unfold entry_result.
      pose proof (fun s1 H1 => rows_ok t rest b5 cs k rows Hb (cf_fuel cf) [] false c s1 H1 Hrows (or_intror Hne)) as K.
      destruct (convert_rows (cf_ndebug cf) c rows) as [o c'] eqn:Er. destruct o as [vs|e0|u| |]; cbn [omap] in *.
      2-5: (bg; [exact G|]; intros s1 H1; apply bind_fails; [discriminate|]; rewrite app_nil_r; exact (K s1 H1)).
      bg; [exact G|]. intros s1 H1. bg; [exact (K s1 H1)|]. intros s2 H2. cbn [fst snd orb].
      unfold mbind at 1. rewrite is_empty_line_eq, (sees_cur _ _ _ _ _ _ _ H2), (pempty_blank st _ Hb). cbn [run_opt]. unfold mret at 1; cbv beta iota.
      cbn [negb]. destruct (forallb (fun r => is_nil (lit_value (snd r))) rows); cbn [negb andb].
      + apply gets_ret. rewrite app_nil_r. exact H2.
      + rewrite mget_bind. rewrite put_all_forms.
        * unfold mbind at 1. 
          assert (W : forall s3, sees t rest c' b5 cs k s3 ->
             gets (dict_add cf (AddPlural (opt_value (en_ctxt e)) (lit_value (en_id e)) (lit_value p) (forms vs)) s3) tt
               (sees t rest c' b5 cs (k ++ [CallAdd (AddPlural (opt_value (en_ctxt e)) (lit_value (en_id e)) (lit_value p) (forms vs))]))).
          { intros s3. apply dict_add_ok. }
          destruct (negb (pf_valid (get_plural_forms (p_dict s2)))); [rewrite warning_eq; apply W; exact H2|].
          destruct (negb (Z.eqb _ _)); [rewrite warning_eq|]; apply W; exact H2.
        * intro E. subst vs. destruct rows as [|[n l] rows]; [congruence|]. cbn [convert_rows] in Er.
          destruct (convert _ _ _) as [[[?|?|?| |] ?] ?]; try discriminate Er.
          destruct (convert_rows _ _ _) as [[?|?|?| |] ?]; discriminate Er.
  Qed.

  Lemma id_stops strict b5 l t rest : lit_ok strict b5 l -> stops (hd t (lit_lines (bs "msgid") l ++ rest)).
  Proof. intros _. apply msg_stops, kw_msg. reflexivity. Qed.
  Lemma body_stops b t rest : stops (hd t (body_lines b ++ rest)).
  Proof.
    destruct b; cbn [body_lines].
    - apply msg_stops, kw_msg. reflexivity.
    - rewrite <- app_assoc. apply msg_stops, kw_msg. reflexivity.
  Qed.

  Lemma entry_follows_run e t rest c b5 cs k fz s :
    sees t (entry_lines e ++ rest) c b5 cs k s -> entry_ok st b5 e -> clean st cs -> follows e (hd t rest) ->
    entry_result (entry cf fn true fz s) tt t rest (big5_after b5 e) cs k (read_entry (cf_ndebug cf) cs c e).
  Proof.
    intros H He Hcs Hb. pose proof He as (Hctxt & Hid & _ & _). unfold entry.
    unfold entry_lines in H. rewrite <- !app_assoc in H.
    (* context *)
    assert (G1 : gets ((hc <- prefix cf (bs "msgctxt");; (if hc then c0 <- get_string cf fn 7;; mret (Some c0) else mret None)) s)
                   (opt_value (en_ctxt e)) (sees t (lit_lines (bs "msgid") (en_id e) ++ body_lines (en_body e) ++ rest) c b5 cs k)).
    { unfold prefix. rewrite mget_bind, (sees_cur _ _ _ _ _ _ _ H). destruct (en_ctxt e) as [l|]; cbn [ctxt_lines opt_value] in *.
      - rewrite lit_hd. bg.
        + apply (get_literal (bs "msgctxt") 7 t _ c b5 cs k l s eq_refl H Hctxt). eapply id_stops, Hid.
        + intros s' H'. apply gets_ret. exact H'.
      - cbn [app]. cbn [lit_lines app hd]. apply gets_ret. exact H. }
    (* msgid *)
    assert (G2 : forall s1, sees t (lit_lines (bs "msgid") (en_id e) ++ body_lines (en_body e) ++ rest) c b5 cs k s1 ->
      gets ((hi_ <- prefix cf (bs "msgid");; (if hi_ then get_string cf fn 5 else error cf fn (bs "expected 'msgid'"))) s1)
        (lit_value (en_id e)) (sees t (body_lines (en_body e) ++ rest) c b5 cs k)).
    { intros s1 H1. unfold prefix. rewrite mget_bind, (sees_cur _ _ _ _ _ _ _ H1), lit_hd.
      apply (get_literal (bs "msgid") 5 t _ c b5 cs k _ s1 eq_refl H1 Hid). apply body_stops. }
    assert (A : forall A B (m : P bool) (f : bool -> P A) (g : A -> P B) x, (b <- m;; a <- f b;; g a) x = (a <- (b <- m;; f b);; g a) x).
    { intros. unfold mbind. destruct (m x) as [[]]; reflexivity. }
    rewrite A. unfold entry_result.
    pose proof (fun s2 H2 => body_ok_run e t rest c b5 cs k fz s2 H2 He Hcs Hb) as K. unfold entry_result in K.
    destruct (read_entry (cf_ndebug cf) cs c e) as [[o c'] calls].
    destruct o as [x|e0|u| |].
    - bg; [exact G1|]. intros s1 H1. rewrite A. bg; [exact (G2 s1 H1)|]. exact K.
    - bg; [exact G1|]. intros s1 H1. rewrite A. bg; [exact (G2 s1 H1)|]. exact K.
    - bg; [exact G1|]. intros s1 H1. rewrite A. bg; [exact (G2 s1 H1)|]. exact K.
    - bg; [exact G1|]. intros s1 H1. rewrite A. bg; [exact (G2 s1 H1)|]. exact K.
    - bg; [exact G1|]. intros s1 H1. rewrite A. bg; [exact (G2 s1 H1)|]. exact K.
  Qed.
  Lemma entry_ok_run e t rest c b5 cs k fz s :
    sees t (entry_lines e ++ rest) c b5 cs k s -> entry_ok st b5 e -> clean st cs -> is_blank (hd t rest) ->
    entry_result (entry cf fn true fz s) tt t rest (big5_after b5 e) cs k (read_entry (cf_ndebug cf) cs c e).
  Proof. intros H He Hcs Hb. apply entry_follows_run; auto. now apply blank_follows. Qed.
End Doc.
