(** The segments of a file are determined by its lines. *)
From Verif.Model Require Import Base Log PluralForms Dictionary IConv Stream PoParser.
From Verif.Spec Require Import ParserSpec PoSpec SoundSpec.
From Verif.Proofs Require Import BaseFacts LexProofs.
From Verif.Spec Require Import DamageSpec.
Local Open Scope list_scope.

(** ** Texts determine pieces, strings, literals *)
Lemma dq_bsl : c_dq <> c_bsl.
Proof. discriminate. Qed.
Lemma pieces_inj b5 ps : forall ps' t t', Forall (piece_ok b5) ps -> Forall (piece_ok b5) ps' ->
  List.concat (List.map piece_text ps) ++ c_dq :: t = List.concat (List.map piece_text ps') ++ c_dq :: t' -> ps = ps' /\ t = t'.
Proof.
  assert (N0 : forall p ps t t', piece_ok b5 p -> c_dq :: t = piece_text p ++ ps ++ c_dq :: t' -> False).
  { intros p ps1 t t' Hp E. destruct p as [c|l|c|a b]; cbn [piece_text app] in E; try discriminate E.
    - injection E as E _. destruct Hp as [Hp _]. congruence.
    - injection E as E _. destruct Hp as (_ & [H1 H2] & _). subst a. vm_compute in H1. contradiction. }
  assert (LB : ~ is_lead c_bsl) by (intros [H _]; vm_compute in H; contradiction).
  induction ps as [|p ps IH]; intros [|p' ps'] t t' H H' E; cbn [List.map List.concat app] in E.
  - injection E as <-. auto.
  - exfalso. inversion H'; subst. rewrite <- app_assoc in E. eapply N0; eassumption.
  - exfalso. inversion H; subst. rewrite <- app_assoc in E. symmetry in E. eapply N0; eassumption.
  - inversion H as [|? ? Hp Hps]; inversion H' as [|? ? Hp' Hps']; subst. rewrite <- !app_assoc in E.
    assert (X : p = p' /\ List.concat (List.map piece_text ps) ++ c_dq :: t = List.concat (List.map piece_text ps') ++ c_dq :: t').
    { destruct p as [c|l|c|a b], p' as [c'|l'|c'|a' b']; cbn [piece_text app piece_ok] in *; injection E; clear E; intros; subst;
        try (split; [reflexivity|assumption]); exfalso; intuition congruence. }
    destruct X as [-> X]. destruct (IH ps' t t' Hps Hps' X) as [-> ->]. auto.
Qed.
Lemma white_dq w w' r r' : white w -> white w' -> w ++ c_dq :: r = w' ++ c_dq :: r' -> w = w' /\ r = r'.
Proof.
  assert (N : isspace c_dq = false) by reflexivity.
  intro H. revert w'. induction H as [|c w Hc _ IH]; intros w' H' E; destruct H' as [|c' w' Hc' H']; cbn [app] in E; injection E; intros; subst.
  - auto.
  - congruence.
  - congruence.
  - destruct (IH w' H' ltac:(assumption)) as [-> ->]. auto.
Qed.
Lemma chunk_inj b5 c c' : chunk_ok false b5 c -> chunk_ok false b5 c' -> chunk_text c = chunk_text c' -> c = c'.
Proof.
  intros (H1 & _ & H3 & _) (H1' & _ & H3' & _) E. unfold chunk_text in E. destruct c as [l b t], c' as [l' b' t']. cbn [ck_lead ck_body ck_trail] in *.
  apply white_dq in E as [-> E]; [|assumption|assumption]. eapply pieces_inj in E as [-> ->]; eauto.
Qed.
Lemma chunk_continues b5 c : chunk_ok false b5 c -> continues (chunk_text c).
Proof. intros (H1 & _). eexists _, _. split; [reflexivity|exact H1]. Qed.
Definition lets_go (r : list bytes) : Prop := match r with x :: _ => ~ continues x | [] => True end.
Lemma chunks_inj b5 m : forall m' r r', Forall (chunk_ok false b5) m -> Forall (chunk_ok false b5) m' -> lets_go r -> lets_go r' ->
  List.map chunk_text m ++ r = List.map chunk_text m' ++ r' -> m = m' /\ r = r'.
Proof.
  induction m as [|c m IH]; intros [|c' m'] r r' H H' N N' E; cbn [List.map app] in E.
  - auto.
  - exfalso. subst r. inversion H'; subst. apply N. eapply chunk_continues; eassumption.
  - exfalso. subst r'. inversion H; subst. apply N'. eapply chunk_continues; eassumption.
  - inversion H; inversion H'; subst. injection E as E1 E2. apply (chunk_inj b5) in E1; [|assumption|assumption]. subst c'.
    destruct (IH m' r r') as [-> ->]; auto.
Qed.
Lemma lit_inj b5 kw l l' r r' : lit_ok false b5 l -> lit_ok false b5 l' -> lets_go r -> lets_go r' ->
  lit_lines kw l ++ r = lit_lines kw l' ++ r' -> l = l' /\ r = r'.
Proof.
  intros H H' N N' E. unfold lit_lines in E. cbn [app] in E. injection E as E1 E2. apply app_inv_head in E1.
  inversion H; inversion H'; subst. apply (chunk_inj b5) in E1; [|assumption|assumption]. apply (chunks_inj b5) in E2 as [E2 ->]; auto.
  split; [|reflexivity]. destruct l as [h1 m1], l' as [h2 m2]. cbn in *. congruence.
Qed.

(** ** Entries *)
Lemma msg_lets_go kw l r : (exists kw', kw = bs "msg" ++ kw') -> lets_go (lit_lines kw l ++ r).
Proof.
  intros [kw' ->] (w & q & E & Hw). destruct w as [|c w].
  - discriminate E.
  - inversion Hw as [|? ? Hc _]; subst. cbn in E. injection E as E _. subst c. discriminate Hc.
Qed.
Lemma body_lets_go b r : lets_go (body_lines b ++ r).
Proof.
  destruct b; cbn [body_lines]; rewrite <- ?app_assoc; apply msg_lets_go; eexists; [instantiate (1 := bs "str")|instantiate (1 := bs "id_plural")]; reflexivity.
Qed.
Lemma digit_inj n n' : n < 10 -> n' < 10 -> digit_of n = digit_of n' -> n = n'.
Proof.
  intros H H' E. do 10 (destruct n as [|n]; [do 10 (destruct n' as [|n']; [try reflexivity; discriminate E|]); lia|]). lia.
Qed.
Lemma blank_not_row n l x r : is_blank x -> row_lines (n, l) <> x :: r.
Proof.
  intros [_ Hb] E. unfold row_lines, lit_lines in E. injection E as E _. destruct Hb as [Hb|[->|(c & l' & -> & _)]].
  - rewrite <- E in Hb. inversion Hb as [|? ? Hc _]. discriminate Hc.
  - discriminate E.
  - discriminate E.
Qed.
Lemma row_head r q : exists x q', row_lines r ++ q = x :: q' /\ ~ is_blank x /\ ~ continues x.
Proof.
  unfold row_lines, lit_lines. cbn [app]. eexists _, _. split; [reflexivity|]. split.
  - intros [_ [Hb|[Hb|(c & l' & Hb & _)]]]; try discriminate Hb. inversion Hb as [|? ? Hc _]. discriminate Hc.
  - intros (w & y & E & Hw). destruct w as [|c w]; [discriminate E|]. inversion Hw as [|? ? Hc _]; subst. injection E as E _. subst c. discriminate Hc.
Qed.
Lemma blank_lets_go x r : is_blank x -> lets_go (x :: r).
Proof.
  intros [_ Hb] (w & y & -> & Hw). destruct Hb as [Hb|[Hb|(c & l' & Hb & _)]].
  - apply Forall_app in Hb as [_ Hb]. inversion Hb as [|? ? Hc _]. discriminate Hc.
  - destruct w as [|c w]; [discriminate Hb|]. injection Hb as -> _. inversion Hw as [|? ? Hc _]. discriminate Hc.
  - destruct w as [|c' w]; [discriminate Hb|]. injection Hb as -> _. inversion Hw as [|? ? Hc _]. discriminate Hc.
Qed.
Lemma rows_inj b5 rows : forall rows' x x' r r',
  Forall (fun r => fst r < 10 /\ lit_ok false b5 (snd r)) rows -> Forall (fun r => fst r < 10 /\ lit_ok false b5 (snd r)) rows' ->
  is_blank x -> is_blank x' -> List.concat (List.map row_lines rows) ++ x :: r = List.concat (List.map row_lines rows') ++ x' :: r' ->
  rows = rows' /\ x :: r = x' :: r'.
Proof.
  assert (G : forall rows x r, is_blank x -> lets_go (List.concat (List.map row_lines rows) ++ x :: r)).
  { intros rows0 x r Hx. destruct rows0 as [|r0 rows0]; cbn [List.map List.concat app]; [now apply blank_lets_go|]. rewrite <- app_assoc.
    destruct (row_head r0 (List.concat (List.map row_lines rows0) ++ x :: r)) as (y & q' & -> & _ & N). exact N. }
  induction rows as [|[n l] rows IH]; intros [|[n' l'] rows'] x x' r r' H H' Hx Hx' E; cbn [List.map List.concat app] in E.
  - auto.
  - exfalso. rewrite <- app_assoc in E. destruct (row_head (n', l') (List.concat (List.map row_lines rows') ++ x' :: r')) as (y & q' & X & N & _).
    rewrite X in E. injection E as -> _. contradiction.
  - exfalso. rewrite <- app_assoc in E. destruct (row_head (n, l) (List.concat (List.map row_lines rows) ++ x :: r)) as (y & q' & X & N & _).
    rewrite X in E. injection E as <- _. contradiction.
  - inversion H as [|? ? [Hn Hl] Hr]; inversion H' as [|? ? [Hn' Hl'] Hr']; subst. cbn [fst snd] in *. rewrite <- !app_assoc in E.
    assert (n = n').
    { unfold row_lines, lit_lines in E. cbn [fst snd app] in E. apply digit_inj; [assumption|assumption|]. injection E as E _. exact E. }
    subst n'. unfold row_lines in E at 1 3. cbn [fst snd] in E. apply (lit_inj b5) in E as [-> E]; auto. destruct (IH rows' x x' r r') as [-> X]; auto.
Qed.

Definition after_ok (e : po_entry) (x : bytes) : Prop :=
  match en_body e with PoStr _ => ~ continues x | PoPlural _ _ => is_blank x end.
Lemma body_inj b5 b b' x x' r r' : body_ok false b5 b -> body_ok false b5 b' ->
  match b with PoStr _ => ~ continues x | PoPlural _ _ => is_blank x end ->
  match b' with PoStr _ => ~ continues x' | PoPlural _ _ => is_blank x' end ->
  body_lines b ++ x :: r = body_lines b' ++ x' :: r' -> b = b' /\ x :: r = x' :: r'.
Proof.
  intros H H' N N' E. destruct b as [m|p rows], b' as [m'|p' rows']; cbn [body_lines body_ok] in *.
  - apply (lit_inj b5) in E as [-> E]; auto.
  - discriminate E.
  - discriminate E.
  - destruct H as (H1 & H2 & H3), H' as (H1' & H2' & H3'). rewrite <- !app_assoc in E.
    assert (G : forall rows x r, rows <> [] -> lets_go (List.concat (List.map row_lines rows) ++ x :: r)).
    { intros rows0 y q Hne. destruct rows0 as [|r0 rows0]; [congruence|]. cbn [List.map List.concat]. rewrite <- app_assoc.
      destruct (row_head r0 (List.concat (List.map row_lines rows0) ++ y :: q)) as (z & q' & -> & _ & Nc). exact Nc. }
    apply (lit_inj b5) in E as [-> E]; auto. apply (rows_inj b5) in E as [-> E]; auto.
Qed.
Lemma entry_inj b5 e e' x x' r r' : entry_ok false b5 e -> entry_ok false b5 e' -> after_ok e x -> after_ok e' x' ->
  entry_lines e ++ x :: r = entry_lines e' ++ x' :: r' -> e = e' /\ x :: r = x' :: r'.
Proof.
  intros (H1 & H2 & H3 & _) (H1' & H2' & H3' & _) N N' E. unfold entry_lines in E. rewrite <- !app_assoc in E. unfold after_ok in *.
  destruct e as [oc i b], e' as [oc' i' b']. cbn [en_ctxt en_id en_body] in *.
  assert (M : forall i r, lets_go (lit_lines (bs "msgid") i ++ r)) by (intros; apply msg_lets_go; exists (bs "id"); reflexivity).
  assert (X : oc = oc' /\ lit_lines (bs "msgid") i ++ body_lines b ++ x :: r = lit_lines (bs "msgid") i' ++ body_lines b' ++ x' :: r').
  { destruct oc as [c|], oc' as [c'|]; cbn [ctxt_lines app] in E; [|discriminate E|discriminate E|auto].
    apply (lit_inj b5) in E as [-> E]; auto. }
  destruct X as [-> X]. apply (lit_inj b5) in X as [-> X]; auto using body_lets_go. apply (body_inj b5) in X as [-> X]; auto.
Qed.

(** ** Blocks *)
Definition follows_ok (b : po_block) (x : bytes) : Prop :=
  match bl_entry b with None => white x | Some e => after_ok e x end.
Lemma block_inj b5 b b' x x' r r' : block_fine b5 b -> block_fine b5 b' -> follows_ok b x -> follows_ok b' x' ->
  block_lines b ++ x :: r = block_lines b' ++ x' :: r' -> b = b' /\ x :: r = x' :: r'.
Proof.
  intros [Hc He] [Hc' He'] N N' E. destruct b as [cm oe], b' as [cm' oe']. unfold block_lines, follows_ok in *. cbn [bl_comments bl_entry] in *. rewrite <- !app_assoc in E.
  set (q := match oe with Some e => entry_lines e | None => [] end ++ x :: r) in *.
  set (q' := match oe' with Some e => entry_lines e | None => [] end ++ x' :: r') in *.
  assert (Q : forall oe x r, match oe with None => white x | Some e => after_ok e x end ->
    exists y z, match oe with Some e => entry_lines e | None => [] end ++ x :: r = y :: z /\ ~ is_comment y).
  { intros [e|] y z Hy.
    - unfold entry_lines. destruct (en_ctxt e) as [c|]; cbn [ctxt_lines app lit_lines]; eexists _, _; (split; [reflexivity|]); intros (l & X & _); discriminate X.
    - eexists _, _. split; [reflexivity|]. intros (l & -> & _). inversion Hy as [|? ? Hh _]. discriminate Hh. }
  assert (X : cm = cm' /\ q = q').
  { destruct (Q oe x r N) as (y & z & Ey & Ny). destruct (Q oe' x' r' N') as (y' & z' & Ey' & Ny'). fold q in Ey. fold q' in Ey'. rewrite Ey, Ey' in *.
    clear - Hc Hc' E Ny Ny'. revert cm' Hc' E. induction Hc as [|c cm H _ IH]; intros cm' Hc' E; destruct Hc' as [|c' cm' H' Hc']; cbn [app] in E.
    - auto.
    - injection E as -> _. contradiction.
    - injection E as <- _. contradiction.
    - injection E as <- E. destruct (IH _ Hc' E) as [-> ->]. auto. }
  destruct X as [-> X]. unfold q, q' in X. destruct oe as [e|], oe' as [e'|]; cbn [app] in X.
  - apply (entry_inj b5) in X as [-> X]; auto.
  - exfalso. unfold entry_lines in X. destruct (en_ctxt e); cbn [ctxt_lines app lit_lines] in X; injection X as X _; rewrite <- X in N'; inversion N' as [|? ? Hh _]; discriminate Hh.
  - exfalso. unfold entry_lines in X. destruct (en_ctxt e'); cbn [ctxt_lines app lit_lines] in X; injection X as X _; rewrite X in N; inversion N as [|? ? Hh _]; discriminate Hh.
  - auto.
Qed.
Lemma blank_after e x : is_blank x -> after_ok e x.
Proof. intro H. unfold after_ok. destruct (en_body e); [|exact H]. exact (blank_lets_go x [] H). Qed.
Lemma separator_follows b x : separator_ok b x -> follows_ok b x.
Proof. intros [H1 H2]. unfold follows_ok. destruct (bl_entry b) as [e|]; [now apply blank_after|now apply H2]. Qed.
Lemma nil_separator b : separator_ok b [].
Proof. split; [split; [intros []|left; constructor]|constructor]. Qed.

(** ** Segments *)
Lemma whole_inj b5 b b' sep sep' r r' : block_fine b5 b -> block_fine b5 b' -> separator_ok b sep -> separator_ok b' sep' ->
  block_lines b ++ sep :: r = block_lines b' ++ sep' :: r' -> b = b' /\ sep = sep' /\ r = r'.
Proof.
  intros H H' S S' E. apply (block_inj b5) in E as [-> E]; auto using separator_follows. injection E as -> ->. auto.
Qed.
Lemma excess_not_begins b5 b x : block_fine b5 b -> singular b -> ~ is_blank x -> ~ continues x -> ~ begins b5 (block_lines b ++ [x]).
Proof.
  intros H (e & m & He & Hm) Nb Nc (b' & sep & more & H' & S & E). rewrite <- app_assoc in E. cbn [app] in E. symmetry in E.
  apply (block_inj b5) in E as [-> E]; auto using separator_follows.
  - injection E as -> _. apply Nb, S.
  - unfold follows_ok, after_ok. now rewrite He, Hm.
Qed.
Lemma begins_prefix b5 p q : begins b5 (p ++ q) -> begins b5 p.
Proof. intros (b & sep & more & H1 & H2 & H3). exists b, sep, (q ++ more). rewrite app_assoc. auto. Qed.
Lemma fine_begins b5 b : block_fine b5 b -> begins b5 (block_lines b).
Proof. intro H. exists b, [], [[]]. split; [exact H|]. split; [apply nil_separator|reflexivity]. Qed.
(** two prefixes of the same list *)
Lemma prefixes {A} (p : list A) : forall p' x x' r r', p ++ x :: r = p' ++ x' :: r' ->
  (exists q, p' = p ++ x :: q) \/ (exists q, p = p' ++ x' :: q) \/ (p = p' /\ x = x' /\ r = r').
Proof.
  induction p as [|a p IH]; intros [|a' p'] x x' r r' E; cbn [app] in *.
  - injection E as <- <-. auto.
  - injection E as <- _. left. eexists. reflexivity.
  - injection E as -> _. right. left. eexists. reflexivity.
  - injection E as <- E. destruct (IH _ _ _ _ _ E) as [(q & ->)|[(q & ->)|(-> & -> & ->)]]; eauto 6.
Qed.
Lemma skips_inj sk : forall sk' r r', sk ++ r = sk' ++ r' -> skips sk r -> skips sk' r' -> sk = sk' /\ r = r'.
Proof.
  induction sk as [|l sk IH]; intros [|l' sk'] r r' E [H1 H2] [H1' H2']; cbn [app] in E.
  - auto.
  - exfalso. subst r. inversion H1'; subst. contradiction.
  - exfalso. subst r'. inversion H1; subst. contradiction.
  - injection E as <- E. inversion H1; inversion H1'; subst. destruct (IH sk' r r' E) as [-> ->]; [split; assumption|split; assumption|]. auto.
Qed.


Lemma segment_inj b5 sg sg' r r' : seg_ok b5 sg r -> seg_ok b5 sg' r' -> seg_lines sg ++ r = seg_lines sg' ++ r' -> sg = sg' /\ r = r'.
Proof.
  assert (WE : forall b sep b' x sk r r' r1 r1', seg_ok b5 (Whole b sep) r -> seg_ok b5 (Excess b' x sk) r' ->
    block_lines b ++ sep :: r1 = block_lines b' ++ x :: r1' -> False).
  { clear. intros b sep b' x sk r r' r1 r1' [H S] (H' & Hs & Nb & Nc & _) E. apply (excess_not_begins b5 b' x H' Hs Nb Nc).
    apply prefixes in E as [(q & E)|[(q & E)|(E & -> & _)]].
    - exfalso. assert (X : block_lines b ++ sep :: q ++ [[]] = block_lines b' ++ [[]]) by (rewrite E, <- app_assoc; reflexivity).
      apply (whole_inj b5) in X as (-> & _ & X); auto using nil_separator. destruct q; discriminate X.
    - exists b, sep, (q ++ [sep]). rewrite E, <- !app_assoc. auto.
    - exists b, x, []. rewrite app_nil_r, E. auto. }
  assert (WB : forall b sep pre x sk r r' r1 r1', seg_ok b5 (Whole b sep) r -> seg_ok b5 (Broken pre x sk) r' ->
    block_lines b ++ sep :: r1 = pre ++ x :: r1' -> False).
  { clear. intros b sep pre x sk r r' r1 r1' [H S] (U & NB & _) E. apply NB.
    apply prefixes in E as [(q & E)|[(q & E)|(E & -> & _)]].
    - exfalso. destruct U as (b2 & sep2 & y & more & H2 & S2 & X). rewrite E, <- app_assoc in X. cbn [app] in X. symmetry in X.
      apply (whole_inj b5) in X as (_ & _ & X); auto. destruct q; discriminate X.
    - exists b, sep, (q ++ [sep]). rewrite E, <- !app_assoc. auto.
    - exists b, x, []. rewrite app_nil_r, E. auto. }
  assert (EB : forall b x sk pre x' sk' r r' r1 r1', seg_ok b5 (Excess b x sk) r -> seg_ok b5 (Broken pre x' sk') r' ->
    block_lines b ++ x :: r1 = pre ++ x' :: r1' -> False).
  { clear. intros b x sk pre x' sk' r r' r1 r1' (H & Hs & Nb & Nc & _) (U & NB & K & _) E.
    apply prefixes in E as [(q & E)|[(q & E)|(E & -> & _)]].
    - apply (excess_not_begins b5 b x H Hs Nb Nc). apply (begins_prefix b5 _ q). rewrite <- app_assoc. cbn [app]. rewrite <- E.
      destruct U as (b2 & sep2 & y & more & U). exists b2, sep2, (y :: more). exact U.
    - apply NB. apply (begins_prefix b5 _ q). rewrite <- app_assoc. cbn [app]. rewrite <- E. now apply fine_begins.
    - apply Nc. symmetry in E. exact (K b H Hs E). }
  intros H H' E. destruct sg as [b sep|b x sk|pre x sk], sg' as [b' sep'|b' x' sk'|pre' x' sk']; cbn [seg_lines] in E; rewrite <- !app_assoc in E; cbn [app] in E.
  - destruct H as [H S], H' as [H' S']. apply (whole_inj b5) in E as (-> & -> & ->); auto.
  - exfalso. exact (WE _ _ _ _ _ _ _ _ _ H H' E).
  - exfalso. exact (WB _ _ _ _ _ _ _ _ _ H H' E).
  - exfalso. symmetry in E. exact (WE _ _ _ _ _ _ _ _ _ H' H E).
  - destruct H as (H & Hs & Nb & Nc & K), H' as (H' & Hs' & Nb' & Nc' & K'). apply (block_inj b5) in E as [-> E]; auto.
    + injection E as -> E. apply skips_inj in E as [-> ->]; auto.
    + destruct Hs as (e & m & He & Hm). unfold follows_ok, after_ok. now rewrite He, Hm.
    + destruct Hs' as (e & m & He & Hm). unfold follows_ok, after_ok. now rewrite He, Hm.
  - exfalso. exact (EB _ _ _ _ _ _ _ _ _ _ H H' E).
  - exfalso. symmetry in E. exact (WB _ _ _ _ _ _ _ _ _ H' H E).
  - exfalso. symmetry in E. exact (EB _ _ _ _ _ _ _ _ _ _ H' H E).
  - destruct H as (U & NB & _ & K), H' as (U' & NB' & _ & K').
    assert (UB : forall p, unfinished b5 p -> begins b5 p) by (intros p (b & sep & y & more & X); exists b, sep, (y :: more); exact X).
    apply prefixes in E as [(q & E)|[(q & E)|(-> & -> & E)]].
    + exfalso. apply NB. apply (begins_prefix b5 _ q). rewrite <- app_assoc. cbn [app]. rewrite <- E. auto.
    + exfalso. apply NB'. apply (begins_prefix b5 _ q). rewrite <- app_assoc. cbn [app]. rewrite <- E. auto.
    + apply skips_inj in E as [-> ->]; auto.
Qed.

Lemma seg_lines_ne sg : seg_lines sg <> [].
Proof. destruct sg; cbn [seg_lines]; intro H; apply app_eq_nil in H as [_ H]; discriminate H. Qed.
Theorem segments_unique sgs : forall b5 sgs', segs_ok b5 sgs -> segs_ok b5 sgs' -> segs_lines sgs = segs_lines sgs' -> sgs = sgs'.
Proof.
  induction sgs as [|sg sgs IH]; intros b5 [|sg' sgs'] H H' E; unfold segs_lines in E; cbn [List.map List.concat segs_ok] in *.
  - reflexivity.
  - symmetry in E. apply app_eq_nil in E as [E _]. destruct (seg_lines_ne _ E).
  - apply app_eq_nil in E as [E _]. destruct (seg_lines_ne _ E).
  - destruct H as [H1 H2], H' as [H1' H2']. apply (segment_inj b5) in E as [-> E]; auto. f_equal. eapply IH; eauto.
Qed.
