From Coq Require Import Permutation.
From Verif.Model Require Import Base Log PluralForms Dictionary Enumerate.
From Verif.Spec Require Import DictSpec EnumerateSpec.
From Verif.Proofs Require Import BaseFacts DictProofs.
Local Open Scope list_scope.

Definition good (d : dictionary) : Prop := dict_wf d /\ ctxt_used d.
Lemma good_add : forall d op, good d -> good (fst (add_translation d op)).
Proof. intros d op (W & U). split; [now apply add_wf|]. exact (run_history_used [Add op] d U). Qed.
Lemma good_all : forall ops d, good d -> good (add_all d ops).
Proof. unfold add_all. induction ops as [|op ops IH]; cbn [fold_left]; intros d G; auto using good_add. Qed.

Lemma stored_add : forall d op k, lookup (fst (add_translation d op)) k <> None <-> lookup d k <> None \/ k = op_key op.
Proof.
  intros d op k. rewrite lookup_add. unfold spec_add, update. destruct (key_eq_dec k (op_key op)) as [->|N].
  - split; [auto|discriminate].
  - intuition congruence.
Qed.
Lemma stored_all : forall ops d k, lookup (add_all d ops) k <> None <-> lookup d k <> None \/ exists op, In op ops /\ k = op_key op.
Proof.
  unfold add_all. induction ops as [|op ops IH]; cbn [fold_left]; intros d k.
  - split; [auto|]. intros [H|(op & [] & _)]; exact H.
  - rewrite IH, stored_add. split.
    + intros [[H| ->]|(o & H & E)]; [auto| |]; right; [exists op; cbn; auto|exists o; cbn; auto].
    + intros [H|(o & [<-|H] & E)]; [auto|auto|]. right. eauto.
Qed.
Lemma has_ctxt : forall d c, good d -> (assoc c (d_ctxt d) <> None <-> exists i, lookup d (Some c, i) <> None).
Proof.
  intros d c (W & U). unfold lookup; cbn [fst snd]. destruct (assoc c (d_ctxt d)) as [es|] eqn:E.
  - split; [intros _|discriminate]. apply assoc_In in E. pose proof (U _ _ E) as N. destruct es as [|[i v] es]; [congruence|].
    exists i. cbn [assoc]. destruct (bytes_eqb_spec i i); congruence.
  - split; [congruence|]. intros (i & H). congruence.
Qed.
Lemma no_context_missing : forall d c, good d -> no_context d c = missing c (d_ctxt d).
Proof.
  intros d c G. unfold missing, no_context. destruct (assoc c (d_ctxt d)) as [es|] eqn:E.
  - assert (H : assoc c (d_ctxt d) <> None) by congruence. apply (has_ctxt d c G) in H as (i & H).
    destruct (lookup d (Some c, i)) as [v|] eqn:L; [|congruence]. apply (foreach_ctxt_lookup d c i v (proj1 G)) in L.
    destruct (forallb _ _) eqn:F; [|reflexivity]. rewrite forallb_forall in F. specialize (F _ L). cbn [fst snd] in F.
    destruct (bytes_eqb_spec c c); [discriminate F|congruence].
  - apply forallb_forall. intros [[c' i] v] H. cbn [fst snd]. destruct (bytes_eqb_spec c' c) as [->|N]; [|reflexivity].
    apply (foreach_ctxt_lookup d c i v (proj1 G)) in H. unfold lookup in H; cbn [fst snd] in H. rewrite E in H. discriminate.
Qed.

Section Loop.
  Context {X : Type}.
  Variable place : nat -> placing.
  Variable arrange : nat -> list bytes -> list bytes.
  Variable f : function X.
  Variable ctxts : bool.
  Variable d0 : dictionary.
  Hypothesis A : some_order arrange.

  Definition ahead (w : walk) : list key := List.map (pair (w_at w)) (w_msgs w).
  Record inv (w : walk) (V : list key) : Prop := {
    i_good : good (w_dict w);
    i_nodup : NoDup (V ++ ahead w);
    i_stored : forall k, In k (V ++ ahead w) -> lookup (w_dict w) k <> None /\ concerns ctxts k;
    i_cnodup : NoDup (w_ctxts w);
    i_ctxts : forall c, In c (w_ctxts w) ->
      assoc c (d_ctxt (w_dict w)) <> None /\ ctxts = true /\ forall i, ~ In (Some c, i) (V ++ ahead w);
    i_mono : forall k, lookup d0 k <> None -> lookup (w_dict w) k <> None;
    i_cover : forall k, concerns ctxts k -> lookup d0 k <> None -> In k (V ++ ahead w) \/ exists c, fst k = Some c /\ In c (w_ctxts w) }.

  Lemma target_key : forall op, target op = op_key op. Proof. now intros []. Qed.
  Lemma inserted_perm : forall k n l, fst (inserted place k n l) = l \/ Permutation (k :: l) (fst (inserted place k n l)).
  Proof.
    intros k n l. unfold inserted. destruct (place n) as [|i|]; cbn [fst]; auto. right.
    rewrite <- (firstn_skipn i l) at 1. apply Permutation_middle.
  Qed.
  Lemma ctxt_stays : forall d op c, good d -> assoc c (d_ctxt d) <> None -> assoc c (d_ctxt (fst (add_translation d op))) <> None.
  Proof.
    intros d op c G H. apply (has_ctxt _ _ G) in H as (i & H). apply (has_ctxt _ _ (good_add _ _ G)).
    exists i. apply stored_add. auto.
  Qed.

  (** the maps being walked are left alone *)
  Lemma inv_elsewhere : forall w V op, inv w V -> inv (insert_elsewhere w (fst (add_translation (w_dict w) op))) V.
  Proof.
    intros w V op I. destruct I. constructor; unfold ahead in *; cbn [insert_elsewhere w_dict w_at w_msgs w_ctxts]; auto using good_add.
    - intros k H. destruct (i_stored0 k H). split; auto. apply stored_add. auto.
    - intros c H. destruct (i_ctxts0 c H) as (H1 & H2). split; auto. now apply ctxt_stays.
    - intros k H. apply stored_add. auto.
  Qed.
  Lemma inv_msg : forall w V op, inv w V -> fst (op_key op) = w_at w -> lookup (w_dict w) (op_key op) = None ->
    concerns ctxts (op_key op) -> (forall c, w_at w = Some c -> ~ In c (w_ctxts w)) ->
    inv (insert_msg place w (fst (add_translation (w_dict w) op)) (snd (op_key op))) V.
  Proof.
    intros w V op I E N C NC. unfold insert_msg.
    destruct (inserted place (snd (op_key op)) (w_n w) (w_msgs w)) as [l ok] eqn:P.
    destruct (inserted_perm (snd (op_key op)) (w_n w) (w_msgs w)) as [Q|Q]; rewrite P in Q; cbn [fst] in Q.
    { subst l. apply (inv_elsewhere w V op) in I. destruct I. constructor; assumption. }
    assert (K : forall k, In k (V ++ List.map (pair (w_at w)) l) <-> k = op_key op \/ In k (V ++ ahead w)).
    { intro k. rewrite !in_app_iff. unfold ahead.
      assert (H : In k (List.map (pair (w_at w)) l) <-> In k (List.map (pair (w_at w)) (snd (op_key op) :: w_msgs w))).
      { split; apply Permutation_in, Permutation_map; [now apply Permutation_sym|assumption]. }
      rewrite H. cbn [List.map In]. rewrite <- E, <- surjective_pairing. intuition congruence. }
    destruct I. constructor; unfold ahead in *; cbn [w_dict w_at w_msgs w_ctxts]; auto using good_add.
    - apply (Permutation_NoDup (l := op_key op :: (V ++ List.map (pair (w_at w)) (w_msgs w)))).
      + rewrite (Permutation_middle V). apply Permutation_app_head. rewrite (surjective_pairing (op_key op)), E.
        change ((w_at w, snd (op_key op)) :: List.map (pair (w_at w)) (w_msgs w)) with (List.map (pair (w_at w)) (snd (op_key op) :: w_msgs w)).
        now apply Permutation_map.
      + constructor; auto. intro H. now destruct (i_stored0 _ H).
    - intros k H. apply K in H as [->|H]; [split; auto; apply stored_add; auto|]. destruct (i_stored0 _ H). split; auto. apply stored_add. auto.
    - intros c H. destruct (i_ctxts0 c H) as (H1 & H2 & H3). split; [now apply ctxt_stays|]. split; auto.
      intros i X1. apply K in X1 as [X1|X1]; [|now apply (H3 i)]. apply (NC c); auto. rewrite <- E, <- X1. reflexivity.
    - intros k H. apply stored_add. auto.
    - intros k H1 H2. destruct (i_cover0 k H1 H2) as [H|H]; auto. left. apply K. auto.
  Qed.
  Lemma inv_ctxt : forall w V op c, inv w V -> fst (op_key op) = Some c -> assoc c (d_ctxt (w_dict w)) = None -> ctxts = true ->
    inv (insert_ctxt place w (fst (add_translation (w_dict w) op)) c) V.
  Proof.
    intros w V op c I E N C. unfold insert_ctxt.
    destruct (inserted place c (w_n w) (w_ctxts w)) as [l ok] eqn:P.
    destruct (inserted_perm c (w_n w) (w_ctxts w)) as [Q|Q]; rewrite P in Q; cbn [fst] in Q.
    { subst l. apply (inv_elsewhere w V op) in I. destruct I. constructor; assumption. }
    assert (K : forall k, In k l <-> k = c \/ In k (w_ctxts w)).
    { intro k. assert (H : In k l <-> In k (c :: w_ctxts w)) by (split; apply Permutation_in; [now apply Permutation_sym|assumption]).
      rewrite H. cbn [In]. intuition congruence. }
    destruct I. constructor; unfold ahead in *; cbn [w_dict w_at w_msgs w_ctxts]; auto using good_add.
    - intros k H. destruct (i_stored0 k H). split; auto. apply stored_add. auto.
    - apply (Permutation_NoDup Q). constructor; auto. intro H. now destruct (i_ctxts0 _ H).
    - intros c' H. apply K in H as [->|H].
      + split. { apply (has_ctxt _ _ (good_add _ _ i_good0)). exists (snd (op_key op)). apply stored_add. right. rewrite <- E. symmetry. apply surjective_pairing. }
        split; auto. intros i X1. destruct (i_stored0 _ X1) as (Y & _). apply Y. unfold lookup; cbn [fst snd]. now rewrite N.
      + destruct (i_ctxts0 c' H) as (H1 & H2). split; auto. now apply ctxt_stays.
    - intros k H. apply stored_add. auto.
    - intros k H1 H2. destruct (i_cover0 k H1 H2) as [H|(c' & H & H')]; auto. right. exists c'. split; auto. apply K. auto.
  Qed.

  Lemma walk_add_inv : forall w V op i, inv w V -> In (w_at w, i) V -> inv (walk_add place w op) V.
  Proof.
    intros w V op i I V0. assert (IN : In (w_at w, i) (V ++ ahead w)) by (apply in_app_iff; auto).
    unfold walk_add. rewrite target_key. destruct (op_key op) as [oc oi] eqn:K.
    destruct (i_stored _ _ I _ IN) as (S1 & S2). unfold concerns in S2; cbn [fst] in S2.
    assert (NC : forall c, w_at w = Some c -> ~ In c (w_ctxts w)).
    { intros c E H. destruct (i_ctxts _ _ I _ H) as (_ & _ & H3). apply (H3 i). now rewrite <- E. }
    destruct (w_at w) as [c|] eqn:At; destruct oc as [c'|]; try now apply inv_elsewhere.
    - destruct (assoc c' (d_ctxt (w_dict w))) as [es|] eqn:E.
      + destruct (bytes_eqb_spec c c') as [->|N]; cbn [andb]; [|now apply inv_elsewhere].
        unfold missing. destruct (assoc oi es) as [v|] eqn:E2; [now apply inv_elsewhere|].
        replace oi with (snd (op_key op)) by now rewrite K. apply inv_msg; auto; try rewrite K; cbn [fst]; auto.
        * unfold lookup; cbn [fst snd]. now rewrite E.
        * now rewrite At.
      + apply inv_ctxt; auto. now rewrite K.
    - unfold missing. destruct (assoc oi (d_entries (w_dict w))) as [v|] eqn:E; [now apply inv_elsewhere|].
      replace oi with (snd (op_key op)) by now rewrite K. apply inv_msg; auto; try rewrite K; cbn [fst]; auto. now rewrite At.
  Qed.
  Lemma walk_add_fields : forall w op, w_at (walk_add place w op) = w_at w /\ w_dict (walk_add place w op) = fst (add_translation (w_dict w) op).
  Proof.
    intros w op. unfold walk_add, insert_msg, insert_ctxt, insert_elsewhere.
    repeat match goal with
    | |- context [match ?x with _ => _ end] => destruct x
    end; auto.
  Qed.
  Lemma walk_add_count : forall w op i, good (w_dict w) ->
    let b := inserts (w_dict w) (w_at w, i) op in
    w_n (walk_add place w op) = (if b then 1 else 0) + w_n w /\
    (w_valid (walk_add place w op) = true -> w_valid w = true /\ (b = true -> place (w_n w) <> Rehash)) /\
    (b = true -> place (w_n w) = Rehash -> w_valid (walk_add place w op) = false) /\
    (b = false -> w_msgs (walk_add place w op) = w_msgs w /\ w_ctxts (walk_add place w op) = w_ctxts w /\ w_valid (walk_add place w op) = w_valid w) /\
    (w_valid w = false -> w_valid (walk_add place w op) = false).
  Proof.
    intros w op i G b. assert (M : forall k, w_n (insert_msg place w (fst (add_translation (w_dict w) op)) k) = S (w_n w) /\
        w_valid (insert_msg place w (fst (add_translation (w_dict w) op)) k) = w_valid w && match place (w_n w) with Rehash => false | _ => true end).
    { intro k. unfold insert_msg, inserted. now destruct (place (w_n w)). }
    assert (C : forall k, w_n (insert_ctxt place w (fst (add_translation (w_dict w) op)) k) = S (w_n w) /\
        w_valid (insert_ctxt place w (fst (add_translation (w_dict w) op)) k) = w_valid w && match place (w_n w) with Rehash => false | _ => true end).
    { intro k. unfold insert_ctxt, inserted. now destruct (place (w_n w)). }
    assert (Fin : forall w', b = true -> w_n w' = S (w_n w) ->
       w_valid w' = w_valid w && match place (w_n w) with Rehash => false | _ => true end ->
       w_n w' = (if b then 1 else 0) + w_n w /\
       (w_valid w' = true -> w_valid w = true /\ (b = true -> place (w_n w) <> Rehash)) /\
       (b = true -> place (w_n w) = Rehash -> w_valid w' = false) /\
       (b = false -> w_msgs w' = w_msgs w /\ w_ctxts w' = w_ctxts w /\ w_valid w' = w_valid w) /\
       (w_valid w = false -> w_valid w' = false)).
    { intros w' -> -> ->. destruct (w_valid w), (place (w_n w)); cbn [andb]; intuition (try discriminate; try congruence). }
    assert (Out : b = false -> let w' := insert_elsewhere w (fst (add_translation (w_dict w) op)) in
       w_n w' = (if b then 1 else 0) + w_n w /\
       (w_valid w' = true -> w_valid w = true /\ (b = true -> place (w_n w) <> Rehash)) /\
       (b = true -> place (w_n w) = Rehash -> w_valid w' = false) /\
       (b = false -> w_msgs w' = w_msgs w /\ w_ctxts w' = w_ctxts w /\ w_valid w' = w_valid w) /\
       (w_valid w = false -> w_valid w' = false)).
    { intros ->. cbn [insert_elsewhere w_n w_valid w_msgs w_ctxts Nat.add]. intuition (try discriminate; try congruence). }
    revert Fin Out. unfold walk_add, b, inserts, absent. change (target op) with (op_key op). cbn [fst]. destruct (op_key op) as [oc oi] eqn:K. cbn [fst snd].
    destruct (w_at w) as [c|]; destruct oc as [c'|]; cbn [fst]; intros Fin Out; try (now apply Out).
    - pose proof (no_context_missing (w_dict w) c' G) as NCM. rewrite NCM in Fin, Out |- *. clear NCM. unfold missing, lookup in *. cbn [fst snd] in *.
      destruct (assoc c' (d_ctxt (w_dict w))) as [es|].
      + cbn [orb] in *. destruct (bytes_eqb c c'), (assoc oi es); cbn [andb] in *; try (now apply Out).
        apply Fin; [reflexivity|apply M|apply M].
      + apply Fin; [reflexivity|apply C|apply C].
    - unfold missing, lookup in *. cbn [fst snd] in *. destruct (assoc oi (d_entries (w_dict w))); [now apply Out|].
      apply Fin; [reflexivity|apply M|apply M].
  Qed.

  Lemma adds : forall ops w V i, inv w V -> In (w_at w, i) V ->
    let w' := fold_left (walk_add place) ops w in
    inv w' V /\ w_at w' = w_at w /\ w_dict w' = add_all (w_dict w) ops /\
    (w_valid w' = true -> w_valid w = true /\ w_n w' = w_n w + insertions_of (w_dict w) (w_at w, i) ops /\
      forall j, w_n w <= j < w_n w' -> place j <> Rehash).
  Proof.
    induction ops as [|op ops IH]; intros w V i I IN; cbn [fold_left].
    - cbv zeta. split; [exact I|]. split; [reflexivity|]. split; [reflexivity|]. cbn [insertions_of]. intro. split; auto. split; [lia|]. intros; lia.
    - destruct (walk_add_fields w op) as (F1 & F2). pose proof (walk_add_inv w V op i I IN) as I1.
      destruct (walk_add_count w op i (i_good _ _ I)) as (C1 & C2 & _).
      specialize (IH (walk_add place w op) V i I1). rewrite F1 in IH. specialize (IH IN). cbv zeta in *.
      destruct IH as (H1 & H2 & H3 & H4). split; [exact H1|]. split; [exact H2|]. split. { rewrite H3, F2. reflexivity. }
      intro Va. destruct (H4 Va) as (Va1 & N1 & P1). destruct (C2 Va1) as (Va0 & P0). split; [exact Va0|].
      rewrite F2 in N1. cbn [insertions_of]. split. { rewrite N1, C1. destruct (inserts _ _ _); lia. }
      intros j Hj. destruct (Nat.lt_ge_cases j (w_n (walk_add place w op))) as [L|L]; [|apply P1; lia].
      destruct (inserts (w_dict w) (w_at w, i) op); [|lia]. replace j with (w_n w) by lia. now apply P0.
  Qed.

  Lemma forms_lookup : forall d c i, lookup d (c, i) <> None -> lookup d (c, i) = Some (forms_at d c i).
  Proof.
    intros d [c|] i H; unfold lookup, forms_at, ctxt_or_new, entry_or_new in *; cbn [fst snd] in *.
    - destruct (assoc c (d_ctxt d)); [|congruence]. destruct (assoc i e); congruence.
    - destruct (assoc i (d_entries d)); congruence.
  Qed.
  Definition pick (w : walk) (rest : list bytes) : walk :=
    {| w_dict := w_dict w; w_at := w_at w; w_msgs := rest; w_ctxts := w_ctxts w; w_valid := w_valid w; w_n := w_n w |}.
  Definition enter (w : walk) (c : bytes) (cs : list bytes) : walk :=
    {| w_dict := w_dict w; w_at := Some c; w_msgs := arrange (S (length cs)) (List.map fst (ctxt_or_new (d_ctxt (w_dict w)) c));
       w_ctxts := cs; w_valid := w_valid w; w_n := w_n w |}.
  Lemma inv_pick : forall w V k rest, inv w V -> w_msgs w = k :: rest -> inv (pick w rest) (V ++ [(w_at w, k)]).
  Proof.
    intros w V k rest I E. assert (Q : (V ++ [(w_at w, k)]) ++ ahead (pick w rest) = V ++ ahead w).
    { rewrite <- app_assoc. unfold ahead, pick; cbn [w_at w_msgs]. now rewrite E. }
    destruct I. constructor; try rewrite Q; assumption.
  Qed.
  Lemma inv_enter : forall w V c cs, inv w V -> w_msgs w = [] -> w_ctxts w = c :: cs -> inv (enter w c cs) V.
  Proof.
    intros w V c cs I E E2. destruct I. unfold ahead in *. rewrite E in *. cbn [List.map] in *. rewrite app_nil_r in *. rewrite E2 in *.
    destruct (i_ctxts0 c (or_introl eq_refl)) as (C1 & C2 & C3).
    assert (K : forall k, In k (ahead (enter w c cs)) <-> fst k = Some c /\ lookup (w_dict w) k <> None).
    { intro k. unfold ahead, enter. cbn [w_at w_msgs]. rewrite in_map_iff. unfold lookup. split.
      - intros (i & <- & H). cbn [fst snd]. split; auto. apply (Permutation_in _ (Permutation_sym (A _ _))) in H. unfold ctxt_or_new in H.
        destruct (assoc c (d_ctxt (w_dict w))) as [es|]; [|congruence]. intro N. apply assoc_None in N. now apply N.
      - destruct k as [oc i]. cbn [fst snd]. intros (-> & H). exists i. split; auto. apply (Permutation_in _ (A _ _)). unfold ctxt_or_new.
        destruct (assoc c (d_ctxt (w_dict w))) as [es|]; [|congruence].
        destruct (in_dec bytes_eq_dec i (List.map fst es)) as [Y|Y]; auto. apply assoc_None in Y. congruence. }
    constructor; cbn [enter w_dict w_ctxts]; auto.
    - apply NoDup_app'; auto.
      + unfold ahead, enter. cbn [w_at w_msgs]. apply FinFun.Injective_map_NoDup; [intros a b H; congruence|].
        apply (Permutation_NoDup (A _ _)). apply ctxt_or_new_nodup. apply i_good0.
      + intros k H1 H2. apply K in H2 as (H2 & _). destruct k as [oc i]. cbn [fst] in H2. subst oc. now apply (C3 i).
    - intros k H. apply in_app_iff in H as [H|H]; auto. apply K in H as (H1 & H2). split; auto. unfold concerns. now rewrite H1.
    - now inversion i_cnodup0.
    - intros c' H. destruct (i_ctxts0 c' (or_intror H)) as (D1 & D2 & D3). split; auto. split; auto.
      intros i X1. apply in_app_iff in X1 as [X1|X1]; [now apply (D3 i)|]. apply K in X1 as (X1 & _). cbn [fst] in X1.
      inversion i_cnodup0; subst. congruence.
    - intros k H1 H2. destruct (i_cover0 k H1 H2) as [H|(c' & H & [<-|H'])].
      + left. apply in_app_iff. auto.
      + left. apply in_app_iff. right. apply K. auto.
      + right. eauto.
  Qed.

  Lemma all_ops_cons : forall v l, all_ops (v :: l) = v_ops v ++ all_ops l. Proof. reflexivity. Qed.
  Lemma add_all_app : forall a b d, add_all d (a ++ b) = add_all (add_all d a) b.
  Proof. intros. unfold add_all. apply fold_left_app. Qed.

  (** partial correctness, and what happened if it ended at all *)
  Lemma loop_ends : forall fuel x w seen o seen' d',
    loop X place arrange f fuel x w seen = Some (o, seen', d') -> inv w (List.map v_key seen) -> w_valid w = true ->
    (exists u, o = Ub u) \/
    exists x' more, o = Ret x' /\ seen' = seen ++ more /\ faithful f x (w_dict w) more x' /\ d' = add_all (w_dict w) (all_ops more) /\
      NoDup (List.map v_key seen') /\ (forall k, In k (List.map v_key seen') -> lookup d' k <> None /\ concerns ctxts k) /\
      (forall k, concerns ctxts k -> lookup d0 k <> None -> In k (List.map v_key seen')) /\
      (forall j, w_n w <= j < w_n w + insertions (w_dict w) more -> place j <> Rehash).
  Proof.
    induction fuel as [|fuel IH]; intros x w seen o seen' d' E I V; [discriminate|]. cbn [loop] in E.
    destruct (w_msgs w) as [|k rest] eqn:Ms.
    - destruct (w_ctxts w) as [|c cs] eqn:Cs.
      + injection E as <- <- <-. right. exists x, []. destruct I. unfold ahead in *. rewrite Ms in *. cbn [List.map] in *. rewrite app_nil_r in *.
        rewrite Cs in *. split; [reflexivity|]. split; [reflexivity|]. split; [reflexivity|]. split; [reflexivity|].
        split; [assumption|]. split; [assumption|]. split.
        * intros k H1 H2. destruct (i_cover0 k H1 H2) as [H|(c & _ & [])]. exact H.
        * cbn [insertions]. intros; lia.
      + destruct (IH x (enter w c cs) seen o seen' d' E (inv_enter _ _ _ _ I Ms Cs) V) as [H|H]; auto.
    - destruct (f x (w_at w, k) (forms_at (w_dict w) (w_at w) k) (w_dict w)) as [x1 ops] eqn:F.
      change {| w_dict := w_dict w; w_at := w_at w; w_msgs := rest; w_ctxts := w_ctxts w; w_valid := w_valid w; w_n := w_n w |} with (pick w rest) in E.
      pose proof (inv_pick _ _ _ _ I Ms) as I1.
      assert (IN : In (w_at (pick w rest), k) (List.map v_key seen ++ [(w_at w, k)])) by (apply in_app_iff; right; left; reflexivity).
      destruct (adds ops _ _ _ I1 IN) as (J1 & J2 & J3 & J4). cbv zeta in E. set (w1 := fold_left (walk_add place) ops (pick w rest)) in *. clearbody w1.
      destruct (w_valid w1) eqn:V1; [|injection E as <- <- <-; left; eauto].
      destruct (J4 eq_refl) as (_ & N1 & P1). set (v := ((w_at w, k), forms_at (w_dict w) (w_at w) k, ops) : visit) in *.
      assert (J1' : inv w1 (List.map v_key (seen ++ [v]))) by (rewrite map_app; exact J1).
      destruct (IH _ _ _ _ _ _ E J1' V1) as [H|(x' & more & -> & -> & Fa & -> & R1 & R2 & R3 & R4)]; [auto|].
      right. exists x', (v :: more). split; auto. rewrite J3 in *. cbn [pick w_dict w_n w_at] in *.
      split; [now rewrite <- app_assoc|]. split.
      { cbn [faithful v]. split.
        - apply forms_lookup. apply (i_stored _ _ I). apply in_app_iff. right. unfold ahead. rewrite Ms. now left.
        - rewrite F. cbn [fst snd]. auto. }
      split; [rewrite all_ops_cons, add_all_app; reflexivity|]. split; auto. split; auto. split; auto.
      intros j Hj. cbn [insertions v v_key v_ops fst snd] in Hj.
      destruct (Nat.lt_ge_cases j (w_n w1)); [apply P1; lia|]. apply R4. lia.
  Qed.

  (** total correctness, if no key is added to the maps being walked *)
  Lemma calm_adds : forall ops w V i, inv w V -> In (w_at w, i) V ->
    (forall op, In op ops -> lookup d0 (op_key op) <> None \/
       match w_at w, fst (op_key op) with
       | None, None => False
       | Some c, Some c' => c' <> c /\ exists i, lookup d0 (Some c', i) <> None
       | _, _ => True
       end) ->
    let w' := fold_left (walk_add place) ops w in
    w_msgs w' = w_msgs w /\ w_ctxts w' = w_ctxts w /\ w_valid w' = w_valid w.
  Proof.
    induction ops as [|op ops IH]; intros w V i I IN H; cbn [fold_left]; cbv zeta; auto.
    assert (B : inserts (w_dict w) (w_at w, i) op = false).
    { unfold inserts, absent. cbn [fst]. pose proof (i_good _ _ I) as G. specialize (H op (or_introl eq_refl)).
      destruct (w_at w) as [c|]; destruct (op_key op) as [[c'|] oi]; cbn [fst] in *; auto.
      - rewrite no_context_missing by assumption. unfold missing. destruct H as [H|(H1 & (i' & H2))].
        + apply (i_mono _ _ I) in H. assert (Q : assoc c' (d_ctxt (w_dict w)) <> None) by (apply has_ctxt; eauto).
          destruct (assoc c' (d_ctxt (w_dict w))); [|congruence]. destruct (lookup (w_dict w) (Some c', oi)); [|congruence]. now rewrite andb_false_r.
        + apply (i_mono _ _ I) in H2. assert (Q : assoc c' (d_ctxt (w_dict w)) <> None) by (apply has_ctxt; eauto).
          destruct (assoc c' (d_ctxt (w_dict w))); [|congruence]. destruct (bytes_eqb_spec c c'); [congruence|reflexivity].
      - destruct H as [H|[]]. apply (i_mono _ _ I) in H. now destruct (lookup (w_dict w) (None, oi)). }
    destruct (walk_add_count w op i (i_good _ _ I)) as (_ & _ & _ & C & _). destruct (C B) as (C1 & C2 & C3).
    destruct (walk_add_fields w op) as (F1 & F2). specialize (IH (walk_add place w op) V i (walk_add_inv w V op i I IN)).
    rewrite F1 in IH. specialize (IH IN (fun o Ho => H o (or_intror Ho))). cbv zeta in IH. now rewrite C1, C2, C3 in IH.
  Qed.

  Hypothesis P : in_place d0 f.
  Lemma calm_msgs : forall ms x w seen,
    w_msgs w = ms -> inv w (List.map v_key seen) -> w_valid w = true ->
    (forall x' w' seen', w_msgs w' = [] -> inv w' (List.map v_key seen') -> w_valid w' = true -> w_ctxts w' = w_ctxts w ->
       exists fuel r, loop X place arrange f fuel x' w' seen' = Some r /\ exists x, fst (fst r) = Ret x) ->
    exists fuel r, loop X place arrange f fuel x w seen = Some r /\ exists x, fst (fst r) = Ret x.
  Proof.
    induction ms as [|k rest IH]; intros x w seen Ms I V H; [now apply H|].
    destruct (f x (w_at w, k) (forms_at (w_dict w) (w_at w) k) (w_dict w)) as [x1 ops] eqn:F.
    pose proof (inv_pick _ _ _ _ I Ms) as I1.
    assert (IN : In (w_at (pick w rest), k) (List.map v_key seen ++ [(w_at w, k)])) by (apply in_app_iff; right; left; reflexivity).
    destruct (adds ops _ _ _ I1 IN) as (J1 & _).
    assert (Cm : let w' := fold_left (walk_add place) ops (pick w rest) in w_msgs w' = rest /\ w_ctxts w' = w_ctxts w /\ w_valid w' = w_valid w).
    { apply (calm_adds ops (pick w rest) _ k I1 IN). intros op Ho. apply (P x (w_at w, k) (forms_at (w_dict w) (w_at w) k) (w_dict w)). now rewrite F. }
    cbv zeta in Cm. destruct Cm as (C1 & C2 & C3). set (w1 := fold_left (walk_add place) ops (pick w rest)) in *.
    set (v := ((w_at w, k), forms_at (w_dict w) (w_at w) k, ops) : visit).
    destruct (IH x1 w1 (seen ++ [v]) C1) as (fuel & r & R).
    + rewrite map_app. exact J1.
    + congruence.
    + rewrite C2. exact H.
    + exists (S fuel), r. cbn [loop]. rewrite Ms, F. cbv zeta. fold (pick w rest). fold w1. rewrite C3, V. exact R.
  Qed.
  Lemma calm_ends : forall n x w seen, length (w_ctxts w) = n -> inv w (List.map v_key seen) -> w_valid w = true ->
    exists fuel r, loop X place arrange f fuel x w seen = Some r /\ exists x, fst (fst r) = Ret x.
  Proof.
    induction n as [|n IH]; intros x w seen L I V; apply (calm_msgs (w_msgs w)); auto; intros x' w' seen' Ms I' V' C.
    - exists 1, (Ret x', seen', w_dict w'). cbn [loop]. rewrite Ms, C. destruct (w_ctxts w); [|discriminate]. cbn [fst]. eauto.
    - destruct (w_ctxts w) as [|c cs] eqn:Cs; [discriminate|]. injection L as L.
      destruct (IH x' (enter w' c cs) seen') as (fuel & r & R); auto.
      { now apply inv_enter. }
      exists (S fuel), r. cbn [loop]. rewrite Ms, C. exact R.
  Qed.
End Loop.
