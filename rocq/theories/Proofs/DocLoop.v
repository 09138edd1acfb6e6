(** Whole documents: the block loop, damaged entries, and files that lack their
    last newline. *)
From Verif.Model Require Import Base Log PluralForms Dictionary IConv Stream PoParser.
From Verif.Spec Require Import ParserSpec PoSpec.
From Verif.Proofs Require Import BaseFacts DictProofs LexProofs ParserUnary DocLex ParserRel ParserSafe ParserFuel ParserLocal
  ParserCut ParserBlank ParserTerm ParserLinewise ParserMisc DocProofs.
From Verif.Spec Require Import PoSpec.
Local Open Scope list_scope.


(** ** Lines of documents *)
Definition good_line (l : bytes) : Prop := one_line l /\ starts_with bom l = false.
Lemma good_head x r : x <> chr 239 -> one_line (x :: r) -> good_line (x :: r).
Proof.
  intros H H1. split; [exact H1|]. apply not_true_iff_false. intro K. apply starts_with_spec in K as [u K].
  apply H. cbn in K. inversion K. reflexivity.
Qed.
Lemma space_not_bom x : isspace x = true -> x <> chr 239.
Proof. intros H ->. vm_compute in H. discriminate. Qed.
Lemma chunk_good strict b5 ck : chunk_ok strict b5 ck -> good_line (chunk_text ck).
Proof.
  intro H. pose proof (chunk_one_line _ _ _ H) as H1. destruct (chunk_head _ _ _ H) as (x & r & E & Hx). rewrite E in *.
  apply good_head; [|exact H1]. destruct Hx as [Hx| ->]; [now apply space_not_bom|discriminate].
Qed.
Lemma lit_good strict b5 kw l : starts_with (bs "msg") kw = true -> one_line kw -> lit_ok strict b5 l -> Forall good_line (lit_lines kw l).
Proof.
  intros Hk Hk1 H. pose proof (lit_one_line _ _ kw l Hk1 H) as H1. inversion H as [|? ? Hh Hm]; subst. unfold lit_lines in *.
  inversion H1; subst. constructor.
  - apply starts_with_spec in Hk as [u ->]. apply good_head; [discriminate|assumption].
  - rewrite Forall_map. eapply Forall_impl; [|exact Hm]. intros a. apply chunk_good.
Qed.
Lemma concrete_one_line l : existsb (byte_eqb c_lf) l = false -> one_line l.
Proof.
  intros H Hin. rewrite existsb_false_forall in H. specialize (H _ Hin). rewrite byte_eqb_refl in H. discriminate.
Qed.
Lemma row_kw_one_line n : n < 10 -> one_line (bs "msgstr[" ++ [digit_of n; c_rbr]).
Proof. intro H. do 10 (destruct n as [|n]; [apply concrete_one_line; reflexivity|]). lia. Qed.
Lemma body_good strict b5 b : body_ok strict b5 b -> Forall good_line (body_lines b).
Proof.
  destruct b as [m|p rows]; cbn [body_ok body_lines].
  - intro H. eapply lit_good; [reflexivity|apply concrete_one_line; reflexivity|exact H].
  - intros (Hp & _ & Hr). apply Forall_app. split.
    + eapply lit_good; [reflexivity|apply concrete_one_line; reflexivity|exact Hp].
    + apply Forall_concat. rewrite Forall_map. eapply Forall_impl; [|exact Hr]. intros [n l] [Hn Hl].
      eapply lit_good; [reflexivity|now apply row_kw_one_line|exact Hl].
Qed.
Lemma ctxt_good strict b5 c : match c with Some l => lit_ok strict b5 l | None => True end -> Forall good_line (ctxt_lines c).
Proof.
  destruct c as [l|]; intro H; cbn [ctxt_lines]; [|constructor].
  eapply lit_good; [reflexivity|apply concrete_one_line; reflexivity|exact H].
Qed.
Lemma entry_good strict b5 e : entry_ok strict b5 e -> Forall good_line (entry_lines e).
Proof.
  intros (Hc & Hi & Hb & _). unfold entry_lines. apply Forall_app. split; [eapply ctxt_good, Hc|]. apply Forall_app. split.
  - eapply lit_good; [reflexivity|apply concrete_one_line; reflexivity|exact Hi].
  - eapply body_good, Hb.
Qed.
Lemma comment_good l : is_comment l -> good_line l.
Proof.
  intros (l' & -> & H). apply good_head; [discriminate|]. intros [E|E]; [discriminate|]. exact (H E).
Qed.
Lemma blank_good l : is_blank l -> good_line l.
Proof.
  intros [H1 [H|[->|(c & l' & -> & Hc)]]].
  - destruct l as [|x l]; [split; [exact H1|reflexivity]|]. inversion H; subst. apply good_head; [now apply space_not_bom|exact H1].
  - apply good_head; [discriminate|exact H1].
  - apply good_head; [discriminate|exact H1].
Qed.
Lemma block_good strict b5 b : Forall is_comment (bl_comments b) ->
  match bl_entry b with Some e => entry_ok strict b5 e | None => True end -> Forall good_line (block_lines b).
Proof.
  intros Hc He. unfold block_lines. apply Forall_app. split.
  - eapply Forall_impl; [|exact Hc]. apply comment_good.
  - destruct (bl_entry b); [eapply entry_good, He|constructor].
Qed.
Lemma entries_ok_app strict es1 : forall b5 es2, entries_ok strict b5 (es1 ++ es2) <->
  entries_ok strict b5 es1 /\ entries_ok strict (big5_end b5 es1) es2.
Proof.
  induction es1 as [|e es1 IH]; intros b5 es2; cbn [app entries_ok big5_end fold_left]; [tauto|].
  fold (big5_end (big5_after b5 e) es1). rewrite IH. tauto.
Qed.
Lemma blocks_good strict bl : forall b5, Forall block_ok bl -> entries_ok strict b5 (blocks_entries bl) -> Forall good_line (blocks_lines bl).
Proof.
  induction bl as [|[b sep] bl IH]; intros b5 H He; [constructor|]. inversion H as [|? ? [Hc [Hs _]] H']; subst. cbn [fst snd] in *.
  unfold blocks_lines, blocks_entries in *. cbn [List.map List.concat fst snd] in *. apply entries_ok_app in He as [He1 He2].
  apply Forall_app. split; [apply Forall_app; split|].
  - eapply (block_good strict b5); [exact Hc|]. destruct (bl_entry b); [|exact Logic.I]. apply He1.
  - constructor; [now apply blank_good|constructor].
  - eapply IH; eauto.
Qed.
Lemma good_one_lines ls : Forall good_line ls -> Forall one_line ls.
Proof. intro H. eapply Forall_impl; [|exact H]. intros a [Ha _]. exact Ha. Qed.

Section DocLoop.
  Variable cf : config.
  Variable fn : bytes.
  Local Notation I := (cf_iconv cf).
  Local Notation P := (M (pst I)).
  Local Notation st := (cf_strict cf).
  Local Notation sees := (sees cf).
  Local Notation nd := (cf_ndebug cf).
  Local Open Scope mon_scope.
  Ltac bg := match goal with
    | |- gets _ _ _ _ => eapply bind_gets_gets
    | |- fails _ _ _ _ => eapply bind_gets_fails
    | |- _ => eapply bind_gets
    end.

  (** outcomes of an entry *)
  Lemma read_entry_outcome cs (c : iconv I) e : fst (fst (read_entry nd cs c e)) <> Exn ExPo.
  Proof.
    unfold read_entry. destruct (en_body e) as [m|p rows].
    - destruct (is_nil _).
      + unfold set_charsets. cbn [andb]. destruct (bytes_eqb _ _); [discriminate|].
        destruct (ic_open _ _ _) as [?|[? ?]]; discriminate.
      + destruct (is_nil _); [discriminate|].
        destruct (convert_cases cf nd c (lit_value m)) as [(v & c' & ev & Ec)|[(c' & ev & Ec)|(c' & ev & Ec)]]; rewrite Ec; discriminate.
    - assert (K : forall rows (c : iconv I), fst (convert_rows nd c rows) <> Exn ExPo).
      { clear. induction rows as [|[n l] rows IH]; intro c; cbn [convert_rows]; [discriminate|].
        destruct (convert_cases cf nd c (lit_value l)) as [(v & c' & ev & Ec)|[(c' & ev & Ec)|(c' & ev & Ec)]]; rewrite Ec; try discriminate.
        specialize (IH c'). destruct (convert_rows nd c' rows) as [[?|?|?| |] ?]; cbn [fst] in *; congruence. }
      specialize (K rows c). destruct (convert_rows nd c rows) as [[?|?|?| |] ?]; cbn [fst omap] in *; congruence.
  Qed.

  (** ** One block *)
  Lemma blank_not_hash b l : separator_ok b l -> bl_entry b = None -> starts_with [c_hash] l = false.
  Proof.
    intros [_ H] E. specialize (H E). destruct l as [|x l]; [reflexivity|]. inversion H; subst.
    apply not_true_iff_false. intro K. apply starts_with_spec in K as [u K]. cbn in K. inversion K; subst x. vm_compute in H2. discriminate.
  Qed.
  Lemma entry_not_hash e t rest : starts_with [c_hash] (hd t (entry_lines e ++ rest)) = false.
  Proof. unfold entry_lines. destruct (en_ctxt e); reflexivity. Qed.
  Lemma entry_not_empty e t rest : pempty st (hd t (entry_lines e ++ rest)) = Some false.
  Proof.
    apply (proj2 (pquote_letter st (hd t (entry_lines e ++ rest))
      ltac:(unfold entry_lines; rewrite <- !app_assoc; destruct (en_ctxt e); cbn [ctxt_lines app]; [apply kw_msg|apply kw_msg]; reflexivity))).
  Qed.

  Definition block_meaning cs c (b : po_block) : outcome unit * iconv I * list dict_call :=
    match bl_entry b with Some e => read_entry nd cs c e | None => (Ret tt, c, []) end.
  Definition block_big5 b5 (b : po_block) : bool := match bl_entry b with Some e => big5_after b5 e | None => b5 end.

  Lemma block_runs b t rest c b5 cs k s :
    sees t (block_lines b ++ rest) c b5 cs k s -> Forall is_comment (bl_comments b) -> separator_ok b (hd t rest) ->
    match bl_entry b with Some e => entry_ok st b5 e | None => True end -> clean st cs -> (rest = [] -> t = []) ->
    entry_result cf (block cf fn true s) tt t (tl rest) (block_big5 b5 b) cs k (block_meaning cs c b).
  Proof.
    intros H Hc Hsep He Hcs Ht. unfold block_lines in H. rewrite <- app_assoc in H. destruct Hsep as [Hb Hsep]. 
    set (ls := match bl_entry b with Some e => entry_lines e | None => [] end ++ rest) in *.
    assert (Hn : starts_with [c_hash] (hd t ls) = false).
    { unfold ls. destruct (bl_entry b) eqn:E; [apply entry_not_hash|]. cbn [app]. exact (blank_not_hash b (hd t rest) (conj Hb (fun _ => Hsep eq_refl)) E). }
    (* the end of a block *)
    assert (T : forall c' b5' k' s2, sees t rest c' b5' cs k' s2 ->
       gets cf ((e' <- is_empty_line cf;; ((if e' then mret tt else error cf fn (bs "expected empty line"));; next_line cf)) s2)
            tt (sees t (tl rest) c' b5' cs k')).
    { intros c' b5' k' s2 H2. unfold mbind at 1. rewrite is_empty_line_eq, (sees_cur _ _ _ _ _ _ _ _ H2), (pempty_blank st _ Hb).
      cbn [run_opt]. unfold mret at 1; cbv beta iota. unfold mbind, mret. rewrite next_line_eq. apply gets_ret. now apply sees_tl. }
    unfold block. unfold block_meaning, block_big5.
      pose proof (comments_block cf t ls c b5 cs k (bl_comments b) (cf_fuel cf) false s H Hc Hn) as C.
      destruct (comments cf (cf_fuel cf) false s) as [o s1] eqn:Ec. destruct C as [C|(fz & C & H1)]; cbn [fst snd] in C.
      { subst o. unfold entry_result. destruct (bl_entry b) as [e|].
        - destruct (read_entry nd cs c e) as [[[?|?|?| |] ?] ?]; left; unfold mbind; rewrite Ec; reflexivity.
        - left. unfold mbind; rewrite Ec; reflexivity. }
      cbn [fst snd] in *. subst o. unfold mbind at 1. rewrite Ec. clear Ec s H.
      unfold mbind at 1. rewrite is_empty_line_eq, (sees_cur _ _ _ _ _ _ _ _ H1). unfold ls in *. destruct (bl_entry b) as [e|].
      - rewrite entry_not_empty. cbn [run_opt]. unfold mret at 1; cbv beta iota.
        pose proof (entry_ok_run cf fn e t rest c b5 cs k fz s1 H1 He Hcs Hb) as R. unfold entry_result in *.
        destruct (read_entry nd cs c e) as [[o c'] calls]. destruct o as [x|e0|u| |].
        + bg; [exact R|]. intros s2 H2. apply T, H2.
        + apply bind_fails; [discriminate|exact R].
        + apply bind_fails; [discriminate|exact R].
        + apply bind_fails; [discriminate|exact R].
        + apply bind_fails; [discriminate|exact R].
      - cbn [app] in *. rewrite (pempty_blank st _ Hb). cbn [run_opt]. unfold mret at 1; cbv beta iota.
        unfold mbind at 1. unfold mret at 1; cbv beta iota. unfold entry_result. rewrite app_nil_r. apply T, H1.
  Qed.
  Lemma block_run b t rest c b5 cs k s :
    sees t (block_lines b ++ rest) c b5 cs k s -> Forall is_comment (bl_comments b) -> separator_ok b (hd t rest) ->
    match bl_entry b with Some e => entry_ok st b5 e | None => True end -> clean st cs -> (rest = [] -> t = []) ->
    entry_result cf (try_block cf fn true s) tt t (tl rest) (block_big5 b5 b) cs k (block_meaning cs c b).
  Proof.
    intros H Hc Hsep He Hcs Ht. pose proof (block_runs b t rest c b5 cs k s H Hc Hsep He Hcs Ht) as B.
    assert (No : fst (fst (block_meaning cs c b)) <> Exn ExPo).
    { unfold block_meaning. destruct (bl_entry b); [apply read_entry_outcome|discriminate]. }
    unfold try_block. destruct (block cf fn true s) as [o s']. unfold entry_result, gets, fails, ok in *.
    destruct (block_meaning cs c b) as [[om cm] calls]. cbn [fst] in No.
    destruct om as [x|e0|u| |]; destruct B as [B|B]; cbn [fst snd] in B.
    all: try (subst o; left; reflexivity).
    1: destruct B as [-> B]; right; split; [reflexivity|exact B].
    all: destruct B as [B1 B2]; destruct o as [y|e1|u1| |]; cbn [omap] in B1; try discriminate B1; try (right; split; [exact B1|exact B2]; fail).
    destruct e1; try (right; split; [exact B1|exact B2]; fail). congruence.
  Qed.

  (** ** The loop *)
  Definition leads (f : nat) (s : pst I) (Q : pst I -> Prop) : Prop :=
    fst (parse_loop cf fn true f s) = OutOfFuel \/
    exists f' s', parse_loop cf fn true f s = parse_loop cf fn true f' s' /\ Q s'.
  Lemma leads_here f s (Q : pst I -> Prop) : Q s -> leads f s Q.
  Proof. intro H. right. eauto. Qed.
  Lemma leads_then f s (Q R : pst I -> Prop) : leads f s Q -> (forall f' s', Q s' -> leads f' s' R) -> leads f s R.
  Proof.
    intros [H|(f' & s' & E & HQ)] K; [left; exact H|]. unfold leads. rewrite E. apply K, HQ.
  Qed.
  Lemma leads_fails f s (Q : pst I -> Prop) o k : leads f s Q -> (forall f' s', Q s' -> fails cf (parse_loop cf fn true f' s') o k) ->
    fails cf (parse_loop cf fn true f s) o k.
  Proof. intros [H|(f' & s' & E & HQ)] K; [left; exact H|]. rewrite E. apply K, HQ. Qed.

  Lemma sees_eof t l ls c b5 cs k s : sees t (l :: ls) c b5 cs k s -> p_eof s = false.
  Proof. intros [(_ & _ & H) _]. apply H. Qed.
  Lemma loop_step f s : p_eof s = false -> parse_loop cf fn true (S f) s = mbind (try_block cf fn true) (fun _ => parse_loop cf fn true f) s.
  Proof. intro H. cbn [parse_loop]. rewrite mget_bind, H. reflexivity. Qed.

  Lemma block_loop b t rest c b5 cs k f s :
    sees t (block_lines b ++ rest) c b5 cs k s -> p_eof s = false ->
    Forall is_comment (bl_comments b) -> separator_ok b (hd t rest) ->
    match bl_entry b with Some e => entry_ok st b5 e | None => True end -> clean st cs -> (rest = [] -> t = []) ->
    match block_meaning cs c b with
    | (Ret _, c', calls) => leads f s (sees t (tl rest) c' (block_big5 b5 b) cs (k ++ calls))
    | (o, _, calls) => fails cf (parse_loop cf fn true f s) o (k ++ calls)
    end.
  Proof.
    intros H He Hc Hsep Hent Hcs Ht. pose proof (block_run b t rest c b5 cs k s H Hc Hsep Hent Hcs Ht) as R.
    unfold entry_result in R. destruct (block_meaning cs c b) as [[o c'] calls].
    destruct f as [|f]; [destruct o; left; reflexivity|].
    destruct o as [x|e|u| |].
    - destruct R as [R|[R1 R2]].
      + left. rewrite (loop_step f s He). unfold mbind. destruct (try_block cf fn true s) as [o' s']. cbn [fst] in R. subst. reflexivity.
      + right. exists f, (snd (try_block cf fn true s)). split; [|exact R2]. rewrite (loop_step f s He). unfold mbind.
        destruct (try_block cf fn true s) as [o' s']. cbn [fst snd] in *. subst. reflexivity.
    - rewrite (loop_step f s He). apply bind_fails; [discriminate|exact R].
    - rewrite (loop_step f s He). apply bind_fails; [discriminate|exact R].
    - rewrite (loop_step f s He). apply bind_fails; [discriminate|exact R].
    - rewrite (loop_step f s He). apply bind_fails; [discriminate|exact R].
  Qed.

  Lemma blocks_loop t rest cs bl : forall c b5 k f s,
    sees t (blocks_lines bl ++ rest) c b5 cs k s -> Forall block_ok bl -> entries_ok st b5 (blocks_entries bl) -> clean st cs ->
    match read_entries nd cs c (blocks_entries bl) with
    | (Ret _, c', calls) => leads f s (sees t rest c' (big5_end b5 (blocks_entries bl)) cs (k ++ calls))
    | (o, _, calls) => fails cf (parse_loop cf fn true f s) o (k ++ calls)
    end.
  Proof.
    induction bl as [|[b sep] bl IH]; intros c b5 k f s H Hb He Hcs.
    - cbn [blocks_entries List.map List.concat read_entries big5_end fold_left]. rewrite app_nil_r. apply leads_here. exact H.
    - inversion Hb as [|? ? [Hc Hsep] Hb']; subst. cbn [fst snd] in *.
      unfold blocks_lines in H. cbn [List.map List.concat fst snd] in H. fold (blocks_lines bl) in H. rewrite <- !app_assoc in H. cbn [app] in H.
      change (blocks_entries ((b, sep) :: bl)) with (opt_list (bl_entry b) ++ blocks_entries bl) in *.
      apply entries_ok_app in He as [He1 He2].
      assert (He1' : match bl_entry b with Some e => entry_ok st b5 e | None => True end).
      { destruct (bl_entry b); [apply He1|exact Logic.I]. }
      assert (Heof : p_eof s = false).
      { destruct (block_lines b) as [|l ls]; cbn [app] in H; eapply sees_eof, H. }
      pose proof (block_loop b t (sep :: blocks_lines bl ++ rest) c b5 cs k f s H Heof Hc Hsep He1' Hcs ltac:(discriminate)) as B.
      cbn [tl] in B.
      assert (E5 : block_big5 b5 b = big5_end b5 (opt_list (bl_entry b))).
      { unfold block_big5, big5_end. destruct (bl_entry b); reflexivity. }
      assert (EM : read_entries nd cs c (opt_list (bl_entry b) ++ blocks_entries bl) =
        match block_meaning cs c b with
        | (Ret _, c', calls) => let '(o, c'', calls') := read_entries nd cs c' (blocks_entries bl) in (o, c'', calls ++ calls')
        | r => r
        end).
      { unfold block_meaning. destruct (bl_entry b); cbn [opt_list app read_entries]; [reflexivity|].
        destruct (read_entries nd cs c (blocks_entries bl)) as [[? ?] ?]. reflexivity. }
      rewrite EM. destruct (block_meaning cs c b) as [[o c'] calls]. destruct o as [x|e|u| |]; try exact B.
      rewrite E5 in B. specialize (fun k f s => IH c' (big5_end b5 (opt_list (bl_entry b))) k f s).
      assert (E6 : big5_end b5 (opt_list (bl_entry b) ++ blocks_entries bl) = big5_end (big5_end b5 (opt_list (bl_entry b))) (blocks_entries bl)).
      { unfold big5_end. apply fold_left_app. }
      rewrite E6. destruct (read_entries nd cs c' (blocks_entries bl)) as [[o2 c2] calls2]. destruct o2 as [x2|e|u| |].
      + eapply leads_then; [exact B|]. intros f' s' H'. rewrite app_assoc. apply IH; auto.
      + eapply leads_fails; [exact B|]. intros f' s' H'. rewrite app_assoc. apply IH; auto.
      + eapply leads_fails; [exact B|]. intros f' s' H'. rewrite app_assoc. apply IH; auto.
      + eapply leads_fails; [exact B|]. intros f' s' H'. rewrite app_assoc. apply IH; auto.
      + eapply leads_fails; [exact B|]. intros f' s' H'. rewrite app_assoc. apply IH; auto.
  Qed.

  (** how a run of the loop ends *)
  Definition ends (f : nat) (s : pst I) (o : outcome unit) (k : list dict_call) : Prop :=
    ok cf (parse_loop cf fn true f s) (fun o' s' => o' = o /\ p_calls s' = k).
  Lemma fails_ends f s o k : fails cf (parse_loop cf fn true f s) o k -> ends f s o k.
  Proof.
    intros [H|[H1 H2]]; [left; exact H|right]. split; [|exact H2]. rewrite <- H1. destruct (fst _) as [[]| | | |]; reflexivity.
  Qed.
  Lemma leads_ends f s (Q : pst I -> Prop) o k : leads f s Q -> (forall f' s', Q s' -> ends f' s' o k) -> ends f s o k.
  Proof. intros [H|(f' & s' & E & HQ)] K; [left; exact H|]. unfold ends. rewrite E. apply K, HQ. Qed.
  Lemma end_of_file c b5 cs k f s : sees [] [] c b5 cs k s -> ends f s (Ret tt) k.
  Proof.
    intros [(_ & _ & _ & _ & He) H]. destruct f as [|f]; [left; reflexivity|]. right. cbn [parse_loop]. rewrite mget_bind, He. cbn [is_nil].
    unfold mret. cbn [fst snd]. split; [reflexivity|apply H].
  Qed.

  (** ** A document, from any converter state *)
  Definition doc_ok_from (b5 : bool) (d : document) : Prop :=
    Forall block_ok (dc_blocks d) /\ Forall is_comment (bl_comments (dc_last d)) /\ entries_ok st b5 (doc_entries d).

  Lemma read_entries_app cs es1 : forall (c : iconv I) es2,
    read_entries nd cs c (es1 ++ es2) =
    match read_entries nd cs c es1 with
    | (Ret _, c', calls) => let '(o, c'', calls') := read_entries nd cs c' es2 in (o, c'', calls ++ calls')
    | r => r
    end.
  Proof.
    induction es1 as [|e es1 IH]; intros c es2; cbn [app read_entries].
    - destruct (read_entries nd cs c es2) as [[? ?] ?]. reflexivity.
    - destruct (read_entry nd cs c e) as [[[?|?|?| |] c'] calls]; try reflexivity. rewrite IH.
      destruct (read_entries nd cs c' es1) as [[[?|?|?| |] c2] calls2]; try reflexivity.
      destruct (read_entries nd cs c2 es2) as [[? ?] ?]. rewrite app_assoc. reflexivity.
  Qed.

  Lemma doc_loop D c b5 cs k f s :
    sees [] (doc_lines D) c b5 cs k s -> doc_ok_from b5 D -> clean st cs ->
    ends f s (fst (fst (read_entries nd cs c (doc_entries D)))) (k ++ snd (read_entries nd cs c (doc_entries D))).
  Proof.
    intros H (Hb & Hc & He) Hcs. unfold doc_lines in H. fold (blocks_lines (dc_blocks D)) in H. unfold doc_entries in *.
    apply entries_ok_app in He as [He1 He2].
    pose proof (blocks_loop [] (block_lines (dc_last D)) cs (dc_blocks D) c b5 k f s H Hb He1 Hcs) as B.
    rewrite read_entries_app. destruct (read_entries nd cs c (blocks_entries (dc_blocks D))) as [[o c'] calls].
    destruct o as [x|e|u| |]; cbn [fst snd]; try (apply fails_ends; exact B).
    set (b5' := big5_end b5 (blocks_entries (dc_blocks D))) in *. set (b := dc_last D) in *.
    eapply leads_ends; [exact B|]. clear B H s f. intros f s H.
    destruct (p_eof s) eqn:Ee.
    - (* nothing left *)
      assert (L : block_lines b = []).
      { destruct (block_lines b) as [|l ls]; [reflexivity|]. apply sees_eof in H. congruence. }
      rewrite L in H. unfold block_lines in L. apply app_eq_nil in L as [_ L].
      assert (bl_entry b = None) as ->.
      { destruct (bl_entry b) as [e|]; [|reflexivity]. unfold entry_lines in L. destruct (en_ctxt e); discriminate L. }
      cbn [opt_list read_entries fst snd]. rewrite app_nil_r. eapply end_of_file, H.
    - rewrite <- (app_nil_r (block_lines b)) in H.
      assert (He' : match bl_entry b with Some e => entry_ok st b5' e | None => True end).
      { destruct (bl_entry b); [apply He2|exact Logic.I]. }
      assert (Hsep : separator_ok b (hd [] [])).
      { split; [|intros _; constructor]. split; [intros []|]. left. constructor. }
      pose proof (block_loop b [] [] c' b5' cs (k ++ calls) f s H Ee Hc Hsep He' Hcs ltac:(reflexivity)) as R.
      cbn [tl] in R. unfold block_meaning in R.
      assert (EM : read_entries nd cs c' (opt_list (bl_entry b)) = block_meaning cs c' b).
      { unfold block_meaning. destruct (bl_entry b) as [e|]; cbn [opt_list read_entries]; [|reflexivity].
        destruct (read_entry nd cs c' e) as [[[[]|?|?| |] ?] ?]; rewrite ?app_nil_r; reflexivity. }
      rewrite EM. fold (block_meaning cs c' b) in R. destruct (block_meaning cs c' b) as [[o2 c2] calls2]. cbn [fst snd].
      rewrite app_assoc. destruct o2 as [[]|e|u| |]; try (apply fails_ends; exact R).
      eapply leads_ends; [exact R|]. intros f' s' H'. eapply end_of_file, H'.
  Qed.
End DocLoop.
