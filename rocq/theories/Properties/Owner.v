(** Property C80: programs with dictionaries of their own; fallbacks. *)
From Verif.Model Require Import Base Log PluralForms Dictionary Owner.
From Verif.Spec Require Import DictSpec OwnerSpec.
From Verif.Proofs Require Import BaseFacts PluralProofs DictProofs ManagerLoad OwnerProofs.
Local Open Scope list_scope.

(** C80. A program constructs, changes and destroys any number of dictionaries, in any
    order. It is undefined exactly if it calls or destroys an object that is not alive. *)
Theorem C80_defined :
  forall ops : list owner_op,
  match world_run nothing ops with
  | Some w => exists s, owner_run no_objects ops = Ret s /\ forall p, alive w p = None <-> heap_get (ow_heap s) p = None
  | None => exists u, owner_run no_objects ops = Ub u
  end.
Proof.
  intro ops. pose proof (run_rep ops _ _ rep_start) as H. destruct (world_run nothing ops) as [w|]; [|exact H].
  destruct H as (s & E & _ & R). exists s. split; [exact E|]. intro p. specialize (R p).
  destruct (heap_get (ow_heap s) p), (alive w p); intuition discriminate.
Qed.

(** Then every singular query, with or without context, on every dictionary alive answers
    what the calls made so far say: the dictionary's own text; else, if addFallback was
    called on it, what the dictionary last given to addFallback says about the msgid
    without context; else the msgid. If that leads to a null pointer or a destroyed
    dictionary the query is undefined; if it leads round in a circle, it never ends. *)
Theorem C80_lookups :
  forall (ops : list owner_op) (w : world) (s : owner),
  world_run nothing ops = Some w -> owner_run no_objects ops = Ret s ->
  forall (p : ptr) (d : dictionary) (k : key), heap_get (ow_heap s) p = Some d ->
  (forall t, says w p k t <-> exists depth, query depth (ow_heap s) d k = Ret t) /\
  (dangles w p k <-> exists depth u, query depth (ow_heap s) d k = Ub u) /\
  (circles w p k <-> forall depth, query depth (ow_heap s) d k = OutOfFuel).
Proof.
  intros ops w s W E p d k G. pose proof (run_rep ops _ _ rep_start) as H. rewrite W, E in H.
  destruct H as (s' & [= <-] & _ & R). split; [|split].
  - intro t. split.
    + intro S. destruct (query_says _ _ R _ _ _ S d G) as (n & Hn). exists n. now apply Hn.
    + intros (n & Hn). pose proof (query_sound _ _ R n p d k G) as Q. now rewrite Hn in Q.
  - split.
    + intro S. destruct (query_dangles _ _ R _ _ S d G) as (n & Hn). exists n, UbPointer. now apply Hn.
    + intros (n & u & Hn). pose proof (query_sound _ _ R n p d k G) as Q. now rewrite Hn in Q.
  - split.
    + intros C depth. now apply (query_circles _ _ R depth p k d C G).
    + now apply (forever_circles _ _ R p k d G).
Qed.

(** Each query on a live dictionary has exactly one of these fates, and at most one answer. *)
Theorem C80_one_fate :
  forall (ops : list owner_op) (w : world) (p : ptr) (k : key),
  world_run nothing ops = Some w -> alive w p <> None ->
  ((exists t, says w p k t) \/ dangles w p k \/ circles w p k) /\
  (forall t t', says w p k t -> says w p k t' -> t = t') /\
  ~ ((exists t, says w p k t) /\ dangles w p k) /\ ~ ((exists t, says w p k t) /\ circles w p k) /\
  ~ (dangles w p k /\ circles w p k).
Proof.
  intros ops w p k W A. pose proof (run_rep ops _ _ rep_start) as H. rewrite W in H. destruct H as (s & E & _ & R).
  destruct (alive w p) as [x|] eqn:Ap; [clear A|easy]. destruct (orep_some _ _ _ _ R Ap) as (d & G & _).
  destruct (C80_lookups ops w s W E p d k G) as (L1 & L2 & L3).
  assert (Det : forall a b, query a (ow_heap s) d k <> OutOfFuel -> query b (ow_heap s) d k <> OutOfFuel ->
                  query a (ow_heap s) d k = query b (ow_heap s) d k).
  { assert (M : forall a, query a (ow_heap s) d k <> OutOfFuel -> exists n, forall f, n <= f -> query f (ow_heap s) d k = query a (ow_heap s) d k).
    { intros a N. pose proof (query_sound _ _ R a p d k G) as Q. destruct (query a (ow_heap s) d k) as [t|e|u| |] eqn:Eq; try easy.
      - now apply (query_says _ _ R p k t Q).
      - destruct (query_dangles _ _ R p k Q d G) as (n & Hn). exists (n + a). intros f L.
        assert (X : query f (ow_heap s) d k = Ub UbPointer) by (apply Hn; lia). rewrite X.
        assert (Y : query (n + a) (ow_heap s) d k = Ub UbPointer) by (apply Hn; lia).
        f_equal. revert Eq Y. rewrite !query_part. destruct (part d k) as [es|]; [|discriminate].
        clear. intros Eq _. revert d es Eq. generalize (snd k). intros i. induction a as [|a IH]; intros d es Eq; [discriminate Eq|].
        cbn [translate_in] in Eq. destruct (assoc i es) as [[|? ?]|]; [|discriminate Eq|].
        all: destruct (d_has_fallback d); [|discriminate Eq].
        all: destruct (match d_fallback d with Some p => heap_get (ow_heap s) p | None => None end) as [fb|]; [|now injection Eq].
        all: apply (IH fb (d_entries fb)); destruct (translate_in a (ow_heap s) fb (d_entries fb) i); exact Eq. }
    intros a b Na Nb. destruct (M a Na) as (n & Hn), (M b Nb) as (m & Hm).
    rewrite <- (Hn (n + m)), <- (Hm (n + m)) by lia. reflexivity. }
  split; [|split; [|split; [|split]]].
  - destruct (query_decided _ _ p d k R G) as [(f & Hf)|F]; [|right; right; now apply L3].
    pose proof (query_sound _ _ R f p d k G) as Q. destruct (query f (ow_heap s) d k); [left; eauto|easy|right; left; exact Q|easy|easy].
  - intros t t' S S'. apply L1 in S as (a & Ea). apply L1 in S' as (b & Eb).
    assert (X : Ret t = Ret t') by (rewrite <- Ea, <- Eb; apply Det; congruence). now injection X.
  - intros [(t & S) Da]. apply L1 in S as (a & Ea). apply L2 in Da as (b & u & Eb).
    assert (X : Ret t = Ub u) by (rewrite <- Ea, <- Eb; apply Det; congruence). discriminate X.
  - intros [(t & S) C]. apply L1 in S as (a & Ea). rewrite (proj1 L3 C) in Ea. discriminate Ea.
  - intros [Da C]. apply L2 in Da as (b & u & Eb). rewrite (proj1 L3 C) in Eb. discriminate Eb.
Qed.

(** The other queries do not depend on fallbacks. *)
Theorem C80_other_queries :
  forall (ops : list owner_op) (w : world) (s : owner),
  world_run nothing ops = Some w -> owner_run no_objects ops = Ret s ->
  forall (p : ptr) (d : dictionary) (x : facts), heap_get (ow_heap s) p = Some d -> alive w p = Some x ->
  (forall k pl n, query_plural d k pl n = spec_translate_plural (its_catalogue x) (its_plural x) k pl n) /\
  get_charset d = its_charset x /\ get_plural_forms d = its_plural x /\
  NoDup (List.map fst (foreach d)) /\
  (forall msgid forms, In (msgid, forms) (foreach d) <-> its_catalogue x (None, msgid) = Some forms) /\
  NoDup (List.map fst (foreach_ctxt d)) /\
  (forall ctxt msgid forms, In (ctxt, msgid, forms) (foreach_ctxt d) <-> its_catalogue x (Some ctxt, msgid) = Some forms).
Proof.
  intros ops w s W E p d x G A. pose proof (run_rep ops _ _ rep_start) as H. rewrite W, E in H.
  destruct H as (s' & [= <-] & _ & R). specialize (R p). rewrite G, A in R. destruct R as [C P S F Wf U].
  assert (L : forall k pl n, spec_translate_plural (lookup d) (d_plural d) k pl n =
                             spec_translate_plural (its_catalogue x) (its_plural x) k pl n).
  { intros. rewrite P. now apply spec_translate_plural_ext. }
  split; [|split; [exact S|split; [exact P|split; [exact (proj1 Wf)|split; [|split; [now apply foreach_ctxt_nodup|]]]]]].
  - intros [[c|] i] pl n; unfold query_plural; cbn [fst snd].
    + rewrite translate_ctxt_plural_spec. apply L.
    + rewrite translate_plural_spec. apply L.
  - intros i f. rewrite <- C. now apply foreach_lookup.
  - intros c i f. rewrite <- C. now apply foreach_ctxt_lookup.
Qed.

(** Two dictionaries, one the fallback of the other, a third destroyed; a function applied
    to all entries. *)
Definition ex_program : list owner_op :=
  [ New (bs "UTF-8"); New (bs "UTF-8"); New (bs "koi8-r");
    Call 0 (DoAdd (AddSingular None (bs "yes") (bs "jo")));
    Call 0 (DoAdd (AddSingular (Some (bs "menu")) (bs "file") (bs "Datei")));
    Call 1 (DoAdd (AddSingular None (bs "no") (bs "nein")));
    Call 0 (DoAddFallback (Some 2));
    Call 0 (DoAddFallback (Some 1));
    Call 1 (DoForeach (fun i v => (i ++ bs "=") :: v));
    Call 2 (DoAddFallback None);
    Delete 2;
    Call 1 (DoAddFallback (Some 2)) ].

(** a view of the world that can be computed *)
Definition its (w : world) (p : ptr) (k : key) : option (list bytes) :=
  match alive w p with Some x => its_catalogue x k | None => None end.
Definition its_next (w : world) (p : ptr) : option (option ptr) :=
  match alive w p with Some x => its_fallback x | None => None end.
Lemma has_intro w p k t rest : its w p k = Some (t :: rest) -> has w p k t.
Proof. unfold its, has. destruct (alive w p) as [x|]; [eauto|discriminate]. Qed.
Lemma goes_on_intro w p k q : its_next w p = Some q -> its w p k = None ->
  (fst k = None \/ exists i, its w p (fst k, i) <> None) -> goes_on w p k q.
Proof.
  unfold its_next, its, goes_on. destruct (alive w p) as [x|]; [|discriminate]. intros H1 H2 H3. exists x.
  split; [reflexivity|]. split; [intros t rest; now rewrite H2|]. auto.
Qed.

Definition the_world (ops : list owner_op) : world :=
  match world_run nothing ops with Some w => w | None => nothing end.
Definition the_owner (ops : list owner_op) : owner :=
  match owner_run no_objects ops with Ret s => s | _ => no_objects end.
Lemma ran ops : match world_run nothing ops with Some _ => true | None => false end = true ->
  world_run nothing ops = Some (the_world ops) /\ owner_run no_objects ops = Ret (the_owner ops).
Proof.
  intro H. unfold the_world, the_owner. pose proof (C80_defined ops) as D. destruct (world_run nothing ops) as [w|]; [|discriminate].
  destruct D as (s & -> & _). auto.
Qed.

Example C80_nonvacuous :
  exists w s, world_run nothing ex_program = Some w /\ owner_run no_objects ex_program = Ret s /\
    says w 0 (None, bs "yes") (bs "jo") /\
    says w 0 (Some (bs "menu"), bs "no") (bs "no=") /\
    says w 0 (Some (bs "door"), bs "no") (bs "no") /\
    dangles w 0 (None, bs "perhaps") /\
    (exists w', world_run nothing (ex_program ++ [Call 1 (DoAddFallback (Some 0))]) = Some w' /\
                circles w' 0 (None, bs "perhaps")) /\
    world_run nothing (ex_program ++ [Delete 2]) = None.
Proof.
  exists (the_world ex_program), (the_owner ex_program).
  destruct (ran ex_program) as [R1 R2]; [vm_compute; reflexivity|]. split; [exact R1|]. split; [exact R2|].
  split; [|split; [|split; [|split; [|split]]]].
  - apply says_own. apply (has_intro _ _ _ _ []). vm_compute. reflexivity.
  - apply says_fallback with (q := 1).
    + apply goes_on_intro; [vm_compute; reflexivity|vm_compute; reflexivity|]. right. exists (bs "file"). vm_compute. discriminate.
    + apply says_own. apply (has_intro _ _ _ _ [bs "nein"]). vm_compute. reflexivity.
  - apply (says_msgid _ 0 (Some (bs "door"), bs "no")).
    assert (D : forall i, its (the_world ex_program) 0 (Some (bs "door"), i) = None).
    { intro i. unfold the_world, ex_program. cbn [world_run world_step nothing alive born put_at Nat.eq_dec nat_rec nat_rect after_call].
      unfold its. cbn. unfold spec_add, update.
      repeat match goal with |- context [key_eq_dec ?a ?b] => destruct (key_eq_dec a b) as [X|_]; [discriminate X|] end. reflexivity. }
    unfold its in D. unfold stops. destruct (alive (the_world ex_program) 0) as [x|] eqn:E.
    + exists x. split; [reflexivity|]. split; [intros t rest; now rewrite D|]. right. split; [discriminate|exact D].
    + exfalso. assert (its_next (the_world ex_program) 0 = Some (Some 1)) as N by (vm_compute; reflexivity).
      unfold its_next in N. rewrite E in N. discriminate N.
  - apply dangles_later with (q := 1); [|apply dangles_dead with (q := 2); [|vm_compute; reflexivity]].
    + apply goes_on_intro; [vm_compute; reflexivity|vm_compute; reflexivity|now left].
    + apply goes_on_intro; [vm_compute; reflexivity|vm_compute; reflexivity|now left].
  - exists (the_world (ex_program ++ [Call 1 (DoAddFallback (Some 0))])).
    split; [apply ran; vm_compute; reflexivity|]. cofix CH.
    apply circles_on with (q := 1); [|apply circles_on with (q := 0); [|exact CH]].
    + apply goes_on_intro; [vm_compute; reflexivity|vm_compute; reflexivity|now left].
    + apply goes_on_intro; [vm_compute; reflexivity|vm_compute; reflexivity|now left].
  - destruct (world_run nothing (ex_program ++ [Delete 2])) as [w|] eqn:E; [|reflexivity]. exfalso.
    assert (X : match world_run nothing (ex_program ++ [Delete 2]) with Some _ => true | None => false end = false) by (vm_compute; reflexivity).
    rewrite E in X. discriminate X.
Qed.

Print Assumptions C80_defined.
Print Assumptions C80_lookups.
Print Assumptions C80_other_queries.
Print Assumptions C80_one_fate.
