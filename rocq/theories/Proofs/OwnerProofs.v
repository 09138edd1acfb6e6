(** C80: a program that owns dictionaries. *)
From Verif.Model Require Import Base Log PluralForms Dictionary Owner.
From Verif.Spec Require Import DictSpec OwnerSpec.
From Verif.Proofs Require Import BaseFacts PluralProofs DictProofs ManagerLoad.
Local Open Scope list_scope.

Definition fb_rep (d : dictionary) (o : option (option ptr)) : Prop :=
  match o with None => d_has_fallback d = false | Some q => d_has_fallback d = true /\ d_fallback d = q end.
Record rep (d : dictionary) (x : facts) : Prop := {
  rep_cat : forall k, lookup d k = its_catalogue x k;
  rep_pl : d_plural d = its_plural x;
  rep_cs : d_charset d = its_charset x;
  rep_fb : fb_rep d (its_fallback x);
  rep_wf : dict_wf d;
  rep_used : ctxt_used d }.
Definition orep (h : heap) (w : world) : Prop :=
  forall p, match heap_get h p, alive w p with
            | Some d, Some x => rep d x | None, None => True | _, _ => False end.

Lemma add_used d op : ctxt_used d -> ctxt_used (fst (add_translation d op)).
Proof. exact (run_history_used [Add op] d). Qed.

Lemma assoc_map_snd V (f : bytes -> V -> V) m k :
  assoc k (List.map (fun e => (fst e, f (fst e) (snd e))) m) =
  match assoc k m with Some v => Some (f k v) | None => None end.
Proof.
  induction m as [|[k' v] m IH]; cbn [List.map assoc fst snd]; [reflexivity|].
  destruct (bytes_eqb_spec k k') as [->|]; [reflexivity|exact IH].
Qed.
Lemma map_fst_snd V W (f : bytes -> V -> W) (m : list (bytes * V)) :
  List.map fst (List.map (fun e => (fst e, f (fst e) (snd e))) m) = List.map fst m.
Proof. rewrite map_map. now apply map_ext. Qed.

Lemma ctxt_map_lookup (f : bytes -> bytes -> list bytes -> list bytes) c i (m : ctxt_entries) :
  match assoc c (List.map (fun ce => (fst ce, List.map (fun e => (fst e, f (fst ce) (fst e) (snd e))) (snd ce))) m) with
  | Some es => assoc i es | None => None end =
  match match assoc c m with Some es => assoc i es | None => None end with Some v => Some (f c i v) | None => None end.
Proof.
  induction m as [|[c' es] m IH]; cbn [List.map assoc fst snd]; [reflexivity|].
  destruct (bytes_eqb_spec c c') as [->|]; [|exact IH]. apply assoc_map_snd.
Qed.

Lemma rep_op op d x : rep d x -> rep (do_dict_op op d) (after_call op x).
Proof.
  intros [C P S F W U]. destruct op as [a|p|q|f|f]; cbn [do_dict_op after_call].
  - destruct (add_fields d a) as (E1 & E2 & E3 & E4).
    constructor; cbn [with_catalogue its_catalogue its_plural its_charset its_fallback]; try congruence.
    + intro k. rewrite lookup_add. unfold spec_add, update. destruct (key_eq_dec k (op_key a)); now rewrite ?C.
    + unfold fb_rep in *. destruct (its_fallback x); rewrite ?E3, ?E4; assumption.
    + now apply add_wf.
    + now apply add_used.
  - constructor; auto.
  - constructor; auto. cbn [fb_rep its_fallback]. split; reflexivity.
  - constructor; cbn [with_catalogue its_catalogue its_plural its_charset its_fallback]; auto.
    + intros [[c|] i]; unfold rewritten; [exact (eq_trans (eq_refl (lookup d (Some c, i))) (C (Some c, i)))|].
      rewrite <- C. unfold lookup; cbn [fst snd foreach_assign set_entries d_entries].
      now rewrite assoc_map_snd.
    + destruct W as (W1 & W2 & W3). split; [|split; assumption].
      cbn [foreach_assign set_entries d_entries]. now rewrite map_fst_snd.
  - constructor; cbn [with_catalogue its_catalogue its_plural its_charset its_fallback]; auto.
    + intros [[c|] i]; unfold rewritten_ctxt; [|exact (eq_trans (eq_refl (lookup d (None, i))) (C (None, i)))].
      rewrite <- C. unfold lookup; cbn [fst snd foreach_ctxt_assign set_ctxt d_ctxt].
      apply ctxt_map_lookup.
    + destruct W as (W1 & W2 & W3). split; [assumption|]. cbn [foreach_ctxt_assign set_ctxt d_ctxt]. split.
      * now rewrite (map_fst_snd _ _ (fun c es => List.map (fun e => (fst e, f c (fst e) (snd e))) es)).
      * intros c es I. apply in_map_iff in I as ([c' es'] & E & I). cbn [fst snd] in E. inversion E; subst.
        rewrite map_fst_snd. eauto.
    + intros c es I. cbn [foreach_ctxt_assign set_ctxt d_ctxt] in I.
      apply in_map_iff in I as ([c' es'] & E & I). cbn [fst snd] in E. inversion E; subst.
      apply U in I. destruct es'; [easy|discriminate].
Qed.

Lemma rep_new cs : rep (new_dictionary cs) (at_birth cs).
Proof.
  constructor; try reflexivity.
  - intros [[c|] i]; reflexivity.
  - apply new_wf.
  - intros c es [].
Qed.

Definition owner_rep (s : owner) (w : world) : Prop := ow_next s = born w /\ orep (ow_heap s) w.

Lemma orep_some h w p x : orep h w -> alive w p = Some x -> exists d, heap_get h p = Some d /\ rep d x.
Proof. intros R A. specialize (R p). rewrite A in R. destruct (heap_get h p); [eauto|easy]. Qed.
Lemma orep_none h w p : orep h w -> alive w p = None -> heap_get h p = None.
Proof. intros R A. specialize (R p). rewrite A in R. now destruct (heap_get h p). Qed.

Lemma step_rep s w op : owner_rep s w ->
  match world_step w op with
  | None => exists u, owner_step s op = Ub u
  | Some w' => exists s', owner_step s op = Ret s' /\ owner_rep s' w'
  end.
Proof.
  intros [Nx R]. destruct op as [cs|p|p op]; cbn [world_step owner_step].
  - eexists; split; [reflexivity|]. split; cbn [ow_next ow_heap born alive]; [now rewrite Nx|].
    intro q. cbn [heap_get alive]. unfold put_at. rewrite Nx.
    destruct (Nat.eqb_spec q (born w)), (Nat.eq_dec q (born w)); try easy; [apply rep_new|apply R].
  - destruct (alive w p) as [x|] eqn:A.
    + destruct (orep_some _ _ _ _ R A) as (d & G & _). rewrite G. eexists; split; [reflexivity|].
      split; [exact Nx|]. intro q. cbn [ow_heap alive]. rewrite heap_get_filter. unfold put_at.
      destruct (Nat.eqb_spec p q), (Nat.eq_dec q p); try congruence; [easy|apply R].
    + rewrite (orep_none _ _ _ R A). now eexists.
  - destruct (alive w p) as [x|] eqn:A.
    + destruct (orep_some _ _ _ _ R A) as (d & G & Rd). rewrite G. eexists; split; [reflexivity|].
      split; [exact Nx|]. intro q. cbn [ow_heap alive]. unfold put_at.
      destruct (Nat.eq_dec q p) as [->|Nq].
      * rewrite heap_get_set_same. now apply rep_op.
      * rewrite heap_get_set_other by auto. apply R.
    + rewrite (orep_none _ _ _ R A). now eexists.
Qed.

Lemma run_rep ops : forall s w, owner_rep s w ->
  match world_run w ops with
  | None => exists u, owner_run s ops = Ub u
  | Some w' => exists s', owner_run s ops = Ret s' /\ owner_rep s' w'
  end.
Proof.
  induction ops as [|op ops IH]; intros s w R; cbn [world_run owner_run]; [eauto|].
  pose proof (step_rep s w op R) as H. destruct (world_step w op) as [w'|].
  - destruct H as (s' & -> & R'). cbn [obind]. now apply IH.
  - destruct H as (u & ->). now exists u.
Qed.

Lemma rep_start : owner_rep no_objects nothing.
Proof. split; [reflexivity|]. intro p. reflexivity. Qed.

(** ** queries *)
Lemma known_context d x c : rep d x ->
  (assoc c (d_ctxt d) <> None <-> exists i, its_catalogue x (Some c, i) <> None).
Proof.
  intros R. split.
  - intro H. destruct (assoc c (d_ctxt d)) as [es|] eqn:E; [|easy]. pose proof E as I. apply assoc_In in I.
    apply (rep_used _ _ R) in I. destruct es as [|[i v] es]; [easy|]. exists i.
    rewrite <- (rep_cat _ _ R). unfold lookup; cbn [fst snd]. rewrite E. cbn [assoc].
    rewrite bytes_eqb_refl. discriminate.
  - intros (i & H) E. apply H. rewrite <- (rep_cat _ _ R). unfold lookup; cbn [fst snd]. now rewrite E.
Qed.

(** the entries a query looks in *)
Definition part (d : dictionary) (k : key) : option entries :=
  match fst k with None => Some (d_entries d) | Some c => assoc c (d_ctxt d) end.
Lemma query_part fuel h d k :
  query fuel h d k = match part d k with Some es => fst (translate_in fuel h d es (snd k)) | None => Ret (snd k) end.
Proof.
  destruct k as [[c|] i]; unfold query, part; cbn [fst snd]; [|reflexivity].
  unfold translate_ctxt. now destruct (assoc c (d_ctxt d)).
Qed.
Lemma lookup_part d k : lookup d k = match part d k with Some es => assoc (snd k) es | None => None end.
Proof. destruct k as [[c|] i]; reflexivity. Qed.

(** one step of a query *)
Lemma query_step fuel h w p d k : orep h w -> heap_get h p = Some d ->
  (exists t, has w p k t /\ query (S fuel) h d k = Ret t) \/
  (stops w p k /\ query (S fuel) h d k = Ret (snd k)) \/
  (goes_on w p k None /\ query (S fuel) h d k = Ub UbPointer) \/
  (exists q, goes_on w p k (Some q) /\
     match heap_get h q with
     | None => query (S fuel) h d k = Ub UbPointer
     | Some d' => query (S fuel) h d k = query fuel h d' (None, snd k)
     end).
Proof.
  intros R G. pose proof (R p) as Rp. rewrite G in Rp. destruct (alive w p) as [x|] eqn:A; [|easy].
  pose proof (rep_cat _ _ Rp k) as C. rewrite lookup_part in C. rewrite query_part.
  destruct (part d k) as [es|] eqn:Pk.
  - cbn [translate_in]. destruct (assoc (snd k) es) as [[|t rest]|] eqn:As.
    2:{ left. exists t. split; [|reflexivity]. exists x, rest. split; [exact A|congruence]. }
    all: right.
    all: assert (No : forall t rest, its_catalogue x k <> Some (t :: rest)) by (intros; congruence).
    all: assert (Kn : fst k = None \/ exists i, its_catalogue x (fst k, i) <> None)
      by (destruct k as [[c|] i]; [right|now left]; apply (known_context d x c Rp); unfold part in Pk; cbn [fst] in Pk; congruence).
    all: pose proof (rep_fb _ _ Rp) as F; destruct (its_fallback x) as [q|] eqn:Fx; cbn [fb_rep] in F;
      [destruct F as [F1 F2]; rewrite F1, F2 | rewrite F; left; split; [|reflexivity]; exists x; auto].
    all: right; destruct q as [q|]; [right|left; split; [|reflexivity]; exists x; auto].
    all: exists q; (split; [exists x; auto|]).
    all: destruct (heap_get h q) as [d'|]; [|reflexivity]; unfold query; cbn [fst snd]; unfold translate.
    all: destruct (translate_in fuel h d' (d_entries d') (snd k)); reflexivity.
  - right. left. split; [|reflexivity]. exists x. split; [exact A|]. split; [intros; congruence|]. right.
    destruct k as [[c|] i]; [|discriminate Pk]. split; [discriminate|]. intro j. cbn [fst].
    destruct (its_catalogue x (Some c, j)) eqn:E; [|reflexivity]. exfalso.
    apply (proj2 (known_context d x c Rp)); [exists j; congruence|exact Pk].
Qed.

Lemma query_zero h d k : (exists t, query 0 h d k = Ret t /\ part d k = None) \/ query 0 h d k = OutOfFuel.
Proof. rewrite query_part. destruct (part d k); [right; reflexivity|left; eauto]. Qed.

Ltac same_facts := repeat match goal with
  | H : alive ?w ?p = Some ?a, H' : alive ?w ?p = Some ?b |- _ =>
      rewrite H in H'; injection H' as H'; subst
  end.

(** the three cases exclude each other at each step *)
Lemma has_stops w p k t : has w p k t -> stops w p k -> False.
Proof. intros (x & r & A & B) (y & A' & N & _). same_facts. eapply N; eauto. Qed.
Lemma has_goes w p k t q : has w p k t -> goes_on w p k q -> False.
Proof. intros (x & r & A & B) (y & A' & N & _). same_facts. eapply N; eauto. Qed.
Lemma stops_goes w p k q : stops w p k -> goes_on w p k q -> False.
Proof.
  intros (x & A & _ & B) (y & A' & _ & C & D). same_facts. destruct B as [B|[B1 B2]]; [congruence|].
  destruct D as [D|(i & D)]; [easy|]. now rewrite B2 in D.
Qed.
Lemma goes_goes w p k q q' : goes_on w p k q -> goes_on w p k q' -> q = q'.
Proof. intros (x & A & _ & B & _) (y & A' & _ & B' & _). same_facts. congruence. Qed.
Lemma has_has w p k t t' : has w p k t -> has w p k t' -> t = t'.
Proof. intros (x & r & A & B) (y & r' & A' & B'). same_facts. congruence. Qed.

Lemma part_none_stops h w p d k : orep h w -> heap_get h p = Some d -> part d k = None -> stops w p k.
Proof.
  intros R G Pk. destruct (query_step 0 h w p d k R G) as [(t & H & _)|[(S & _)|[(Go & _)|(q & Go & _)]]]; auto; exfalso.
  - destruct H as (x & rest & A & B). pose proof (R p) as Rp. rewrite G, A in Rp.
    rewrite <- (rep_cat _ _ Rp), lookup_part, Pk in B. discriminate.
  - destruct Go as (x & A & _ & _ & [K|(i & K)]).
    + destruct k as [[c|] i]; discriminate.
    + pose proof (R p) as Rp. rewrite G, A in Rp. destruct k as [[c|] j]; [|discriminate]. cbn [fst] in K.
      rewrite <- (rep_cat _ _ Rp) in K. unfold lookup, part in *; cbn [fst snd] in *. rewrite Pk in K. easy.
  - destruct Go as (x & A & _ & _ & [K|(i & K)]).
    + destruct k as [[c|] i]; discriminate.
    + pose proof (R p) as Rp. rewrite G, A in Rp. destruct k as [[c|] j]; [|discriminate]. cbn [fst] in K.
      rewrite <- (rep_cat _ _ Rp) in K. unfold lookup, part in *; cbn [fst snd] in *. rewrite Pk in K. easy.
Qed.

(** soundness, by the depth *)
Lemma query_sound h w : orep h w -> forall fuel p d k, heap_get h p = Some d ->
  match query fuel h d k with
  | Ret t => says w p k t
  | Ub _ => dangles w p k
  | OutOfFuel => True
  | _ => False
  end.
Proof.
  intros R. induction fuel as [|fuel IH]; intros p d k G.
  - destruct (query_zero h d k) as [(t & E & Pk)|E]; rewrite E; [|exact I].
    rewrite query_part, Pk in E. injection E as <-. apply says_msgid. eapply part_none_stops; eauto.
  - destruct (query_step fuel h w p d k R G) as [(t & H & E)|[(S & E)|[(Go & E)|(q & Go & E)]]].
    + rewrite E. now apply says_own.
    + rewrite E. now apply says_msgid.
    + rewrite E. now apply dangles_null.
    + destruct (heap_get h q) as [d'|] eqn:Gq.
      * rewrite E. specialize (IH q d' (None, snd k) Gq). destruct (query fuel h d' (None, snd k)); auto.
        -- now apply says_fallback with q.
        -- now apply dangles_later with q.
      * rewrite E. apply dangles_dead with q; auto. specialize (R q). rewrite Gq in R. now destruct (alive w q).
Qed.

(** completeness *)
Lemma says_alive w p k t : says w p k t -> alive w p <> None.
Proof. intros [? ? ? (x & r & A & _)|? ? (x & A & _)|? ? ? ? (x & A & _) _]; congruence. Qed.
Lemma dangles_alive w p k : dangles w p k -> alive w p <> None.
Proof. intros [? ? (x & A & _)|? ? ? (x & A & _) _|? ? ? (x & A & _) _]; congruence. Qed.

Lemma query_says h w : orep h w -> forall p k t, says w p k t ->
  forall d, heap_get h p = Some d -> exists n, forall fuel, n <= fuel -> query fuel h d k = Ret t.
Proof.
  intros R p k t S. induction S as [p k t H|p k H|p k q t Go S IH]; intros d G.
  - exists 1. intros [|fuel] L; [lia|].
    destruct (query_step fuel h w p d k R G) as [(t' & H' & E)|[(S' & _)|[(Go & _)|(q & Go & _)]]].
    + now rewrite (has_has _ _ _ _ _ H H').
    + destruct (has_stops _ _ _ _ H S').
    + destruct (has_goes _ _ _ _ _ H Go).
    + destruct (has_goes _ _ _ _ _ H Go).
  - exists 1. intros [|fuel] L; [lia|].
    destruct (query_step fuel h w p d k R G) as [(t' & H' & E)|[(S' & E)|[(Go & _)|(q & Go & _)]]].
    + destruct (has_stops _ _ _ _ H' H).
    + exact E.
    + destruct (stops_goes _ _ _ _ H Go).
    + destruct (stops_goes _ _ _ _ H Go).
  - destruct (alive w q) as [y|] eqn:Aq; [|now apply says_alive in S].
    destruct (orep_some _ _ _ _ R Aq) as (d' & Gq & _). destruct (IH d' Gq) as (n & Hn).
    exists (1 + n). intros [|fuel] L; [lia|].
    destruct (query_step fuel h w p d k R G) as [(t' & H' & E)|[(S' & E)|[(Go' & _)|(q' & Go' & E)]]].
    + destruct (has_goes _ _ _ _ _ H' Go).
    + destruct (stops_goes _ _ _ _ S' Go).
    + discriminate (goes_goes _ _ _ _ _ Go Go').
    + injection (goes_goes _ _ _ _ _ Go Go') as <-. rewrite Gq in E. rewrite E. apply Hn. lia.
Qed.

Lemma query_dangles h w : orep h w -> forall p k, dangles w p k ->
  forall d, heap_get h p = Some d -> exists n, forall fuel, n <= fuel -> query fuel h d k = Ub UbPointer.
Proof.
  intros R p k S. induction S as [p k Go|p k q Go Dead|p k q Go S IH]; intros d G.
  - exists 1. intros [|fuel] L; [lia|].
    destruct (query_step fuel h w p d k R G) as [(t' & H' & E)|[(S' & _)|[(Go' & E)|(q & Go' & _)]]].
    + destruct (has_goes _ _ _ _ _ H' Go).
    + destruct (stops_goes _ _ _ _ S' Go).
    + exact E.
    + discriminate (goes_goes _ _ _ _ _ Go Go').
  - exists 1. intros [|fuel] L; [lia|].
    destruct (query_step fuel h w p d k R G) as [(t' & H' & E)|[(S' & _)|[(Go' & E)|(q' & Go' & E)]]].
    + destruct (has_goes _ _ _ _ _ H' Go).
    + destruct (stops_goes _ _ _ _ S' Go).
    + discriminate (goes_goes _ _ _ _ _ Go Go').
    + injection (goes_goes _ _ _ _ _ Go Go') as <-. now rewrite (orep_none _ _ _ R Dead) in E.
  - destruct (alive w q) as [y|] eqn:Aq; [|now apply dangles_alive in S].
    destruct (orep_some _ _ _ _ R Aq) as (d' & Gq & _). destruct (IH d' Gq) as (n & Hn).
    exists (1 + n). intros [|fuel] L; [lia|].
    destruct (query_step fuel h w p d k R G) as [(t' & H' & E)|[(S' & E)|[(Go' & _)|(q' & Go' & E)]]].
    + destruct (has_goes _ _ _ _ _ H' Go).
    + destruct (stops_goes _ _ _ _ S' Go).
    + discriminate (goes_goes _ _ _ _ _ Go Go').
    + injection (goes_goes _ _ _ _ _ Go Go') as <-. rewrite Gq in E. rewrite E. apply Hn. lia.
Qed.

Lemma query_circles h w : orep h w -> forall fuel p k d, circles w p k -> heap_get h p = Some d ->
  query fuel h d k = OutOfFuel.
Proof.
  intros R. induction fuel as [|fuel IH]; intros p k d C G; destruct C as [p k q Go C].
  - destruct (query_zero h d k) as [(t & _ & Pk)|E]; [|exact E].
    destruct (stops_goes _ _ _ _ (part_none_stops _ _ _ _ _ R G Pk) Go).
  - destruct (query_step fuel h w p d k R G) as [(t' & H' & E)|[(S' & E)|[(Go' & _)|(q' & Go' & E)]]].
    + destruct (has_goes _ _ _ _ _ H' Go).
    + destruct (stops_goes _ _ _ _ S' Go).
    + discriminate (goes_goes _ _ _ _ _ Go Go').
    + injection (goes_goes _ _ _ _ _ Go Go') as <-. destruct (heap_get h q) as [d'|] eqn:Gq.
      * rewrite E. now apply IH with q.
      * exfalso. destruct C as [q k' q2 (x & Ax & _) _]. specialize (R q). rewrite Gq, Ax in R. exact R.
Qed.

Lemma forever_circles h w : orep h w -> forall p k d, heap_get h p = Some d ->
  (forall fuel, query fuel h d k = OutOfFuel) -> circles w p k.
Proof.
  intros R. cofix CH. intros p k d G F.
  destruct (query_step 0 h w p d k R G) as [(t' & _ & E)|[(_ & E)|[(_ & E)|(q & Go & E)]]];
    [exfalso; rewrite F in E; discriminate ..|].
  apply circles_on with q; [exact Go|]. destruct (heap_get h q) as [d'|] eqn:Gq.
  - apply CH with d'; [exact Gq|]. intro fuel.
    destruct (query_step fuel h w p d k R G) as [(t' & _ & E')|[(_ & E')|[(_ & E')|(q' & Go' & E')]]];
      try (exfalso; rewrite F in E'; discriminate E').
    assert (Eq : Some q' = Some q) by exact (goes_goes _ _ _ _ _ Go' Go).
    injection Eq as ->. rewrite Gq in E'. now rewrite <- E', F.
  - exfalso. rewrite F in E. discriminate E.
Qed.

(** ** whether a query ends is decided within as many steps as there are dictionaries *)
Section Hops.
  Variable h : heap.
  Variable i : bytes.
  Definition hop (p : ptr) : option ptr :=
    match heap_get h p with
    | None => None
    | Some d =>
        match assoc i (d_entries d) with
        | Some (_ :: _) => None
        | _ => if d_has_fallback d then
                 match d_fallback d with
                 | Some q => match heap_get h q with Some _ => Some q | None => None end
                 | None => None
                 end
               else None
        end
    end.
  Fixpoint hops (n : nat) (p : ptr) : option ptr :=
    match n with O => Some p | S n' => match hop p with Some q => hops n' q | None => None end end.

  Lemma hops_add a b p : hops (a + b) p = match hops a p with Some q => hops b q | None => None end.
  Proof. revert p. induction a as [|a IH]; intro p; cbn [hops Nat.add]; [reflexivity|]. destruct (hop p); auto. Qed.
  Lemma hop_live p q : hop p = Some q -> heap_get h q <> None.
  Proof.
    unfold hop. destruct (heap_get h p) as [d|]; [|discriminate].
    destruct (assoc i (d_entries d)) as [[|]|]; try discriminate; destruct (d_has_fallback d); try discriminate;
      (destruct (d_fallback d) as [r|]; [|discriminate]); destruct (heap_get h r) eqn:E; try discriminate;
      intros [= <-]; congruence.
  Qed.
  Lemma hops_live n : forall p q, heap_get h p <> None -> hops n p = Some q -> heap_get h q <> None.
  Proof.
    induction n as [|n IH]; intros p q L; cbn [hops]; [intros [= <-]; exact L|].
    destruct (hop p) as [r|] eqn:E; [|discriminate]. apply IH. now apply hop_live in E.
  Qed.

  Lemma translate_hops n : forall p d, heap_get h p = Some d ->
    (fst (translate n h d i) = OutOfFuel <-> hops n p <> None).
  Proof.
    induction n as [|n IH]; intros p d G; [split; [discriminate|reflexivity]|].
    unfold translate. cbn [translate_in hops]. unfold hop. rewrite G.
    destruct (assoc i (d_entries d)) as [[|t r]|]; [| split; intro X; [discriminate X|easy] |].
    all: destruct (d_has_fallback d); [|split; intro X; [discriminate X|easy]].
    all: destruct (d_fallback d) as [q|]; [|split; intro X; [discriminate X|easy]].
    all: destruct (heap_get h q) as [d'|] eqn:Gq; [|split; intro X; [discriminate X|easy]].
    all: rewrite <- (IH q d' Gq); unfold translate; destruct (translate_in n h d' (d_entries d') i); reflexivity.
  Qed.

  Lemma hops_forever p : heap_get h p <> None -> hops (length h) p <> None -> forall n, hops n p <> None.
  Proof.
    intros L F.
    set (trail := List.map (fun n => match hops n p with Some q => q | None => 0 end) (seq 0 (S (length h)))).
    assert (Some_le : forall m n, m <= n -> hops n p <> None -> hops m p <> None).
    { intros m n Le N. replace n with (m + (n - m)) in N by lia. rewrite hops_add in N. now destruct (hops m p). }
    assert (Inc : incl trail (List.map fst h)).
    { intros q I. unfold trail in I. apply in_map_iff in I as (n & E & I). apply in_seq in I.
      destruct (hops n p) as [r|] eqn:H; [|destruct (Some_le n (length h)); auto; lia]. subst q.
      apply heap_get_keys. now apply (hops_live n p). }
    assert (Dup : exists a b, a < b <= length h /\ hops a p = hops b p).
    { assert (D : ~ NoDup trail).
      { intro D. apply NoDup_incl_length in Inc; [|exact D]. unfold trail in Inc.
        rewrite !map_length, seq_length in Inc. lia. }
      assert (K : forall l, ~ NoDup (List.map (fun n => match hops n p with Some q => q | None => 0 end) l) -> NoDup l ->
                    (forall n, In n l -> n <= length h) ->
                    exists a b, a <> b /\ In a l /\ In b l /\ hops a p = hops b p).
      { induction l as [|a l IHl]; intros Nd Nl Lt; [exfalso; apply Nd; constructor|].
        inversion Nl as [|? ? Na Nl']; subst. cbn [List.map] in Nd.
        destruct (in_dec Nat.eq_dec (match hops a p with Some q => q | None => 0 end)
                    (List.map (fun n => match hops n p with Some q => q | None => 0 end) l)) as [I|N].
        - apply in_map_iff in I as (b & E & I). exists a, b. split; [congruence|]. split; [now left|]. split; [now right|].
          assert (hops a p <> None) by (apply (Some_le a (length h)); [apply Lt; now left|exact F]).
          assert (hops b p <> None) by (apply (Some_le b (length h)); [apply Lt; now right|exact F]).
          destruct (hops a p), (hops b p); congruence.
        - destruct IHl as (x & y & A & B & C & D'); auto.
          + intro X. apply Nd. now constructor.
          + intros n I. apply Lt. now right.
          + exists x, y. split; [exact A|]. split; [now right|]. split; [now right|exact D']. }
      destruct (K (seq 0 (S (length h))) D (seq_NoDup _ _)) as (a & b & N & Ia & Ib & E).
      { intros n I. apply in_seq in I. lia. }
      apply in_seq in Ia, Ib. destruct (Nat.lt_ge_cases a b); [exists a, b|exists b, a]; (split; [lia|congruence]). }
    destruct Dup as (a & b & Lt & E).
    intro n. induction n as [n IH] using lt_wf_ind.
    destruct (Nat.le_gt_cases n b) as [Le|Gt]; [apply (Some_le n (length h)); auto; lia|].
    assert (IHn : hops (a + (n - b)) p <> None) by (apply IH; lia).
    replace n with (b + (n - b)) by lia. rewrite hops_add in IHn |- *. now rewrite <- E.
  Qed.
End Hops.

Lemma query_decided h w p d k : orep h w -> heap_get h p = Some d ->
  (exists fuel, query fuel h d k <> OutOfFuel) \/ forall fuel, query fuel h d k = OutOfFuel.
Proof.
  intros R G.
  assert (T : forall q d' j, heap_get h q = Some d' ->
     (exists fuel, query fuel h d' (None, j) <> OutOfFuel) \/ forall fuel, query fuel h d' (None, j) = OutOfFuel).
  { intros q d' j Gq. unfold query; cbn [fst snd].
    assert (Dec : fst (translate (length h) h d' j) = OutOfFuel \/ fst (translate (length h) h d' j) <> OutOfFuel)
      by (destruct (fst (translate (length h) h d' j)); auto; right; discriminate).
    destruct Dec as [E|E]; [right|left; eauto]. intro fuel. apply (translate_hops h j fuel q d' Gq).
    apply hops_forever; [congruence|]. now apply (translate_hops h j (length h) q d' Gq). }
  destruct (query_step 0 h w p d k R G) as [(t & _ & E)|[(_ & E)|[(_ & E)|(q & Go & E)]]];
    [left; exists 1; rewrite E; discriminate ..|].
  destruct (heap_get h q) as [d'|] eqn:Gq; [|left; exists 1; rewrite E; discriminate].
  assert (St : forall fuel, query (S fuel) h d k = query fuel h d' (None, snd k)).
  { intro fuel. destruct (query_step fuel h w p d k R G) as [(t & H & _)|[(H & _)|[(H & _)|(q' & Go' & E')]]].
    - destruct (has_goes _ _ _ _ _ H Go).
    - destruct (stops_goes _ _ _ _ H Go).
    - discriminate (goes_goes _ _ _ _ _ Go H).
    - injection (goes_goes _ _ _ _ _ Go Go') as <-. now rewrite Gq in E'. }
  destruct (T q d' (snd k) Gq) as [(fuel & H)|H].
  - left. exists (S fuel). now rewrite St.
  - right. intros [|fuel]; [|now rewrite St].
    destruct (query_zero h d k) as [(t & _ & Pk)|Z]; [|exact Z].
    destruct (stops_goes _ _ _ _ (part_none_stops _ _ _ _ _ R G Pk) Go).
Qed.
