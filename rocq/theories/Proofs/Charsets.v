(** What a file says through a converter that serves a translator. *)
From Verif.Model Require Import Base Log PluralForms Dictionary IConv Language Stream PoParser Manager.
From Verif.Spec Require Import DictSpec LangSpec ParserSpec PoSpec ManagerSpec LoadSpec SoundSpec DamageSpec RunSpec CharsetSpec.
From Verif.Proofs Require Import BaseFacts DictProofs ParserFuel ParserRel ParserMisc DocText ManagerLoad ManagerContent ManagerProps.
From Verif.Proofs Require DocLog.
Local Open Scope list_scope.
Local Open Scope mon_scope.

Section Serve.
  Context {I : iconv_impl}.
  Variable T : translator.
  Variable ready : bytes -> bytes -> ic_state I -> Prop.
  Hypothesis Hopen : forall from to, match T from to with
                     | Some _ => exists st, ic_open I to from = inl st /\ ready from to st
                     | None => exists e, ic_open I to from = inr e
                     end.
  Hypothesis Hconv : forall from to f st text, T from to = Some f -> ready from to st ->
       exists st' err, ic_conv I st text (4 * length text) = (st', f text, err) /\
         match err with
         | None => ready from to st'
         | Some EILSEQ | Some EINVAL => ready from to (ic_reset I st')
         | Some _ => False
         end.
  Variable fn : bytes.
  Variables pd nd : bool.
  Variable to : bytes.
  Local Notation A := (M (world I)).

  (** the converter is ready to apply [f] *)
  Definition applies (f : bytes -> bytes) (c : iconv I) : Prop :=
    match cv_cd c with
    | CdNull => forall t, f t = t
    | CdInvalid => False
    | CdOpen _ st => exists from to, T from to = Some f /\ ready from to st
    end.
  Lemma convert_applies f c text : applies f c ->
    exists c' ev, convert nd c text = (Ret (f text), c', ev) /\ applies f c'.
  Proof.
    unfold applies, convert. destruct (cv_cd c) as [| |id st] eqn:E.
    - intro H. exists c, []. rewrite (H text), E. auto.
    - intros [].
    - intros (from & t & H1 & H2). destruct (Hconv from t f st text H1 H2) as (st' & err & -> & H3).
      destruct err as [[]|]; try contradiction; eexists _, _; (split; [reflexivity|]); cbn [cv_cd]; eauto.
  Qed.
  Lemma open_applies c from :
    match conversion_from T from to with
    | Some f => exists c' ev, set_charsets false c from to = (Ret tt, c', ev) /\ applies f c'
    | None => exists c' ev, set_charsets false c from to = (Exn (ExRuntime (refusal I from to)), c', ev)
    end.
  Proof.
    unfold conversion_from, set_charsets, refusal. cbn [andb].
    assert (E : bytes_eqb (List.map toupper to) (List.map toupper from) = bytes_eqb (List.map toupper from) (List.map toupper to)).
    { destruct (bytes_eqb_spec (List.map toupper to) (List.map toupper from)), (bytes_eqb_spec (List.map toupper from) (List.map toupper to)); congruence. }
    rewrite E. destruct (bytes_eqb (List.map toupper from) (List.map toupper to)).
    - eexists _, _. split; [reflexivity|]. intro t. reflexivity.
    - pose proof (Hopen (c_str (List.map toupper from)) (c_str (List.map toupper to))) as H.
      destruct (T _ _) as [f|] eqn:F.
      + destruct H as (st & -> & R). eexists _, _. split; [reflexivity|]. unfold applies. cbn [cv_cd]. eauto.
      + destruct H as ([e txt] & ->). eexists _, _. destruct e; reflexivity.
  Qed.

  (** how a run goes: the calls made so far, the conversion in force or the end *)
  Definition went {V} (x : outcome V * world I) (cs : list dict_call) (r : V * (bytes -> bytes) + bytes) : Prop :=
    match r with
    | inl (v, f) => fst x = Ret v /\ applies f (w_conv (snd x))
    | inr from => fst x = Exn (ExRuntime (refusal I from to))
    end /\ w_calls (snd x) = cs /\ d_charset (w_dict (snd x)) = to.
  Definition at_f (f : bytes -> bytes) (cs : list dict_call) (w : world I) : Prop :=
    applies f (w_conv w) /\ w_calls w = cs /\ d_charset (w_dict w) = to.
  Lemma went_bind V W (x : A V) (g : V -> A W) w cs v f cs' r :
    went (x w) cs (inl (v, f)) -> (forall w', at_f f cs w' -> went (g v w') cs' r) -> went (mbind x g w) cs' r.
  Proof.
    unfold mbind. intros [[H1 H2] [H3 H4]] H. destruct (x w) as [o w']. cbn [fst snd] in *. subst o. apply H. repeat split; auto.
  Qed.
  Lemma went_stop V W (x : A V) (g : V -> A W) w cs e : went (x w) cs (inr e) -> went (mbind x g w) cs (inr e).
  Proof.
    unfold mbind. intros [H1 H3]. destruct (x w) as [o w']. cbn [fst snd] in *. subst o. split; [reflexivity|exact H3].
  Qed.
  Lemma went_ret V (v : V) f cs w : at_f f cs w -> went (mret v w) cs (inl (v, f)).
  Proof. intros (H1 & H2 & H3). split; [split; [reflexivity|exact H1]|split; [exact H2|exact H3]]. Qed.
  Lemma went_note evs f cs w : at_f f cs w -> went (note evs w) cs (inl (tt, f)).
  Proof. intros (H1 & H2 & H3). split; [split; [reflexivity|exact H1]|split; [exact H2|exact H3]]. Qed.
  Lemma went_get V (g : world I -> V) f cs w : at_f f cs w -> went (mget g w) cs (inl (g w, f)).
  Proof. intros (H1 & H2 & H3). split; [split; [reflexivity|exact H1]|split; [exact H2|exact H3]]. Qed.
  Lemma went_convert t f cs w : at_f f cs w -> went (converting nd t w) cs (inl (f t, f)).
  Proof.
    intros (H1 & H2 & H3). destruct (convert_applies f _ t H1) as (c' & ev & E & H). unfold converting. rewrite E.
    split; [split; [reflexivity|exact H]|split; [exact H2|exact H3]].
  Qed.
  Lemma went_calling l : forall f cs w, at_f f cs w -> went (calling l w) (cs ++ l) (inl (tt, f)).
  Proof.
    induction l as [|c l IH]; intros f cs w H; cbn [calling].
    - rewrite app_nil_r. now apply went_ret.
    - eapply went_bind with (cs := cs ++ [c]) (f := f) (v := tt).
      + destruct H as (H1 & H2 & H3). split; [split; [reflexivity|exact H1]|]. cbn [call mmod fst snd w_calls w_dict]. split; [now rewrite H2|].
        rewrite <- H3. exact (proj2 (proj2 (calls_fields [c] (w_dict w)))).
      + intros w' H'. replace (cs ++ c :: l) with ((cs ++ [c]) ++ l) by now rewrite <- app_assoc. now apply IH.
  Qed.
  Lemma went_adding op f cs w : at_f f cs w -> went (adding op w) (cs ++ [CallAdd op]) (inl (tt, f)).
  Proof.
    intro H. unfold adding. eapply went_bind; [apply went_get, H|]. cbv beta. intros w1 H1. eapply went_bind; [apply went_note, H1|].
    intros w2 (A1 & A2 & A3).
    split; [split; [reflexivity|exact A1]|]. cbn [call mmod fst snd w_calls w_dict]. split; [now rewrite A2|].
    rewrite <- A3. exact (proj2 (proj2 (calls_fields [CallAdd op] (w_dict w2)))).
  Qed.
  Lemma went_rows rows : forall n f cs w, at_f f cs w ->
    went (rows_do fn pd nd n rows w) cs (inl (List.map (fun r => (fst r, f (lit_value (snd r)))) rows, f)).
  Proof.
    induction rows as [|[i l] rows IH]; intros n f cs w H; cbn [rows_do List.map fst snd]; [now apply went_ret|].
    eapply went_bind; [apply went_note, H|]. intros w1 H1. eapply went_bind; [apply went_convert, H1|]. intros w2 H2.
    eapply went_bind; [apply IH, H2|]. intros w3 H3. now apply went_ret.
  Qed.
  Lemma went_opening from f cs w : at_f f cs w ->
    went (opening from w) cs (match conversion_from T from to with Some g => inl (tt, g) | None => inr from end).
  Proof.
    intros (H1 & H2 & H3). unfold opening. rewrite H3. pose proof (open_applies (w_conv w) from) as X.
    destruct (conversion_from T from to) as [g|].
    - destruct X as (c' & ev & -> & X). split; [split; [reflexivity|exact X]|split; [exact H2|exact H3]].
    - destruct X as (c' & ev & ->). split; [reflexivity|split; [exact H2|exact H3]].
  Qed.
  Lemma went_header h n next f cs w : at_f f cs w ->
    went (header_do fn n next h w) (cs ++ List.map CallPlural (hdr_plurals h))
      (match conversion_from T (hdr_charset h) to with Some g => inl (tt, g) | None => inr (hdr_charset h) end).
  Proof.
    intro H. unfold header_do. eapply went_bind; [apply went_get, H|]. cbv beta. intros w1 H1.
    eapply went_bind; [apply went_note, H1|]. intros w2 H2. eapply went_bind; [apply went_calling, H2|]. intros w3 H3. now apply went_opening with f.
  Qed.
  (** what one entry does: the calls, and the conversion in force behind it *)
  Definition entry_step (f : bytes -> bytes) (e : po_entry) : list dict_call * ((bytes -> bytes) + bytes) :=
    match is_header e with
    | Some h => (List.map CallPlural (hdr_plurals h), match conversion_from T (hdr_charset h) to with Some g => inl g | None => inr (hdr_charset h) end)
    | None => (entry_says f e, inl f)
    end.
  Definition going (o : (bytes -> bytes) + bytes) : unit * (bytes -> bytes) + bytes :=
    match o with inl g => inl (tt, g) | inr c => inr c end.
  Lemma went_entry n next e f cs w : at_f f cs w ->
    went (entry_do fn pd nd n next e w) (cs ++ fst (entry_step f e)) (going (snd (entry_step f e))).
  Proof.
    intro H. unfold entry_do. eapply went_bind; [apply went_note, H|]. intros w1 H1. eapply went_bind; [apply went_note, H1|]. intros w2 H2.
    clear H H1 w w1. unfold body_do, entry_step, is_header, entry_says. destruct (en_body e) as [m|p rows].
    - eapply went_bind; [apply went_note, H2|]. intros w3 H3. destruct (is_nil (lit_value (en_id e))); cbn [fst snd].
      + pose proof (went_header (lit_value m) (n + DiagSpec.len (ctxt_lines (en_ctxt e)) + DiagSpec.len (lit_lines (bs "msgid") (en_id e)) + DiagSpec.len (body_lines (PoStr m))) next f cs w3 H3) as X.
        destruct (conversion_from _ _ _); exact X.
      + destruct (is_nil (lit_value m)); [rewrite app_nil_r; now apply went_ret|].
        eapply went_bind; [apply went_convert, H3|]. intros w4 H4. now apply went_adding.
    - eapply went_bind; [apply went_note, H2|]. intros w3 H3. eapply went_bind; [apply went_rows, H3|]. intros w4 H4. cbn [fst snd].
      destruct (forallb _ rows); [rewrite app_nil_r; now apply went_ret|].
      eapply went_bind; [apply went_get, H4|]. cbv beta. intros w5 H5. eapply went_bind; [apply went_note, H5|]. intros w6 H6. now apply went_adding.
  Qed.
  Fixpoint steps (f : bytes -> bytes) (es : list po_entry) : list dict_call * ((bytes -> bytes) + bytes) :=
    match es with
    | [] => ([], inl f)
    | e :: es' => match snd (entry_step f e) with
                  | inl g => (fst (entry_step f e) ++ fst (steps g es'), snd (steps g es'))
                  | inr c => (fst (entry_step f e), inr c)
                  end
    end.
  Lemma steps_says es : forall f, fst (steps f es) = file_says T to f es.
  Proof.
    induction es as [|e es IH]; intro f; [reflexivity|]. cbn [steps file_says]. unfold entry_step. destruct (is_header e) as [h|]; cbn [fst snd].
    - destruct (conversion_from _ _ _); cbn [fst]; [now rewrite IH|now rewrite app_nil_r].
    - now rewrite IH.
  Qed.
  Lemma steps_end es : forall f, match unavailable T to es with
    | Some c => snd (steps f es) = inr c
    | None => exists g, snd (steps f es) = inl g
    end.
  Proof.
    induction es as [|e es IH]; intro f; cbn [steps unavailable]; [cbn; eauto|]. unfold entry_step.
    destruct (is_header e) as [h|]; cbn [fst snd]; [|apply IH]. destruct (conversion_from _ _ _) as [g|]; cbn [snd]; [apply IH|reflexivity].
  Qed.
  Lemma went_block n next b f cs w : at_f f cs w ->
    went (block_do fn pd nd n next b w) (cs ++ fst (steps f (opt_list (bl_entry b)))) (going (snd (steps f (opt_list (bl_entry b))))).
  Proof.
    intro H. unfold block_do. destruct (bl_entry b) as [e|]; cbn [opt_list steps].
    - pose proof (went_entry (n + DiagSpec.len (bl_comments b)) next e f cs w H) as X. destruct (snd (entry_step f e)) as [g|c]; cbn [fst snd]; [now rewrite app_nil_r|exact X].
    - cbn [fst snd going]. rewrite app_nil_r. now apply went_ret.
  Qed.
  Lemma went_lines b5 ls : forall n before next f cs w, at_f f cs w -> went (lines_do fn pd nd b5 n before next ls w) cs (inl (tt, f)).
  Proof.
    induction ls as [|l ls IH]; intros n before next f cs w H; cbn [lines_do]; [now apply went_ret|].
    eapply went_bind; [apply went_note, H|]. intros w1 H1. eapply went_bind with (v := tt) (f := f) (cs := cs); [|intros w2 H2; now apply IH].
    destruct (stage_after _); try now apply went_ret. destruct (has_keyword _); [|now apply went_ret].
    eapply went_bind; [apply went_convert, H1|]. intros w2 H2. now apply went_ret.
  Qed.
  Lemma went_seg b5 n sg m f cs w : at_f f cs w ->
    went (seg_do fn pd nd b5 n sg m w) (cs ++ fst (steps f (seg_entries sg))) (going (snd (steps f (seg_entries sg)))).
  Proof.
    intro H. unfold seg_do.
    assert (X : forall (x : A unit) (y : unit -> A unit), went (x w) (cs ++ fst (steps f (seg_entries sg))) (going (snd (steps f (seg_entries sg)))) ->
      (forall g w', at_f g (cs ++ fst (steps f (seg_entries sg))) w' -> went (y tt w') (cs ++ fst (steps f (seg_entries sg))) (inl (tt, g))) ->
      went (mbind x y w) (cs ++ fst (steps f (seg_entries sg))) (going (snd (steps f (seg_entries sg))))).
    { intros x y Hx Hy. destruct (snd (steps f (seg_entries sg))) as [g|c]; cbn [going] in *; [|now apply went_stop].
      eapply went_bind; [exact Hx|]. intros w' H'. now apply Hy. }
    apply X.
    - destruct sg as [b sep|b x sk|pre x sk]; cbn [seg_entries].
      + now apply went_block.
      + now apply went_block.
      + cbn [steps fst snd going]. rewrite app_nil_r. eapply went_bind; [apply went_lines, H|]. intros w1 H1. now apply went_note.
    - intros g w1 H1. destruct sg as [b sep|b x sk|pre x sk], m; cbv beta iota; solve [exact (went_ret _ tt _ _ _ H1)|exact (went_note _ _ _ _ H1)].
  Qed.
  Lemma steps_app a : forall f b, steps f (a ++ b) = match snd (steps f a) with
    | inl g => (fst (steps f a) ++ fst (steps g b), snd (steps g b))
    | inr _ => steps f a end.
  Proof.
    induction a as [|e a IH]; intros f b; cbn [app steps]; [cbn [fst snd app]; now destruct (steps f b)|].
    destruct (snd (entry_step f e)) as [g|c]; [|reflexivity]. rewrite IH. cbn [fst snd]. destruct (snd (steps g a)) as [h|c] eqn:E; cbn [fst snd]; [now rewrite app_assoc|now rewrite E].
  Qed.
  Lemma went_segs sgs : forall ms b5 n f cs w, length ms = length sgs -> at_f f cs w ->
    went (segs_do fn pd nd b5 n sgs ms w) (cs ++ fst (steps f (segs_entries sgs))) (going (snd (steps f (segs_entries sgs)))).
  Proof.
    induction sgs as [|sg sgs IH]; intros [|m ms] b5 n f cs w L H; try discriminate L; cbn [segs_do].
    - cbn. rewrite app_nil_r. now apply went_ret.
    - unfold segs_entries. cbn [List.map List.concat]. fold (segs_entries sgs). rewrite steps_app.
      pose proof (went_seg b5 n sg m f cs w H) as X. destruct (snd (steps f (seg_entries sg))) as [g|c] eqn:E; cbn [going fst snd] in *.
      + eapply went_bind; [exact X|]. intros w1 H1. rewrite app_assoc. apply IH; [now injection L|exact H1].
      + rewrite E. now apply went_stop.
  Qed.
End Serve.

Lemma diagnosed_length sgs : forall b5 ms, segs_diagnosed b5 sgs ms -> length ms = length sgs.
Proof.
  induction sgs as [|sg sgs IH]; intros b5 [|m ms] H; cbn [segs_diagnosed] in H; try contradiction; [reflexivity|].
  cbn [length]. f_equal. eapply IH. apply H.
Qed.
(** ... and how it ends *)
Lemma segs_end (I : iconv_impl) T fn pd nd sgs ms d : serves I T -> segs_diagnosed false sgs ms ->
  let x := segs_do fn pd nd false 1 sgs ms (start I d) in
  fst x = match unavailable T (d_charset d) (segs_entries sgs) with
          | Some c => Exn (ExRuntime (refusal I c (d_charset d)))
          | None => Ret tt
          end /\
  w_calls (snd x) = file_says T (d_charset d) (fun t => t) (segs_entries sgs).
Proof.
  intros (ready & H1 & H2) D x.
  pose proof (went_segs T ready H1 H2 fn pd nd (d_charset d) sgs ms false 1 (fun t => t) [] (start I d) (diagnosed_length _ _ _ D)) as X.
  destruct X as (X1 & X2 & X3).
  { split; [intro t; reflexivity|split; reflexivity]. }
  split.
  - pose proof (steps_end T (d_charset d) (segs_entries sgs) (fun t => t)) as E. destruct (unavailable _ _ _) as [c|].
    + rewrite E in X1. exact X1.
    + destruct E as (g & E). rewrite E in X1. exact (proj1 X1).
  - rewrite <- steps_says. exact X2.
Qed.
Lemma segs_says (I : iconv_impl) T fn pd nd sgs ms d : serves I T -> segs_diagnosed false sgs ms ->
  let x := segs_do fn pd nd false 1 sgs ms (start I d) in
  (fst x = Ret tt \/ exists m, fst x = Exn (ExRuntime m)) /\
  w_calls (snd x) = file_says T (d_charset d) (fun t => t) (segs_entries sgs).
Proof.
  intros H D x. destruct (segs_end I T fn pd nd sgs ms d H D) as [E C]. split; [|exact C]. fold x in E. rewrite E.
  destruct (unavailable _ _ _); eauto.
Qed.
