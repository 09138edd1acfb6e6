(** Property C97: enumerating a dictionary with a function that changes it. *)
From Coq Require Import Permutation.
From Verif.Model Require Import Base Log PluralForms Dictionary Enumerate.
From Verif.Spec Require Import DictSpec EnumerateSpec.
From Verif.Proofs Require Import BaseFacts DictProofs EnumerateProofs.
Local Open Scope list_scope.

Lemma reached_good : forall cs hist, good (run_history (new_dictionary cs) hist).
Proof.
  intros. split; [apply run_history_wf, new_wf|]. apply run_history_used. intros c es [].
Qed.
Lemma start_inv : forall ctxts arrange d, some_order arrange -> good d ->
  inv ctxts d (if ctxts : bool
               then {| w_dict := d; w_at := None; w_msgs := []; w_ctxts := arrange 0 (List.map fst (d_ctxt d)); w_valid := true; w_n := 0 |}
               else {| w_dict := d; w_at := None; w_msgs := arrange 0 (List.map fst (d_entries d)); w_ctxts := []; w_valid := true; w_n := 0 |}) [].
Proof.
  intros ctxts arrange d A G. pose proof G as ((W1 & W2 & W3) & U).
  assert (Keys : forall V (m : list (bytes * V)) k, In k (arrange 0 (List.map fst m)) <-> assoc k m <> None).
  { intros V m k. split.
    - intros H N. apply assoc_None in N. apply N. now apply (Permutation_in _ (Permutation_sym (A 0 _))).
    - intro H. apply (Permutation_in _ (A 0 _)). destruct (in_dec bytes_eq_dec k (List.map fst m)) as [Y|Y]; auto. now apply assoc_None in Y. }
  destruct ctxts; constructor; unfold ahead; cbn [w_dict w_at w_msgs w_ctxts List.map app]; auto.
  - constructor.
  - intros k [].
  - now apply (Permutation_NoDup (A 0 _)).
  - intros c H. apply Keys in H. auto.
  - intros [[c|] i] C L; [|discriminate C]. right. exists c. split; auto. apply Keys. apply has_ctxt; eauto.
  - apply FinFun.Injective_map_NoDup; [intros a b H; congruence|]. now apply (Permutation_NoDup (A 0 _)).
  - intros k H. apply in_map_iff in H as (i & <- & H). apply Keys in H. split; [exact H|reflexivity].
  - constructor.
  - intros [[c|] i] C L; [discriminate C|]. left. apply in_map. now apply Keys.
Qed.
Lemma enumerate_loop : forall X ctxts place arrange (f : function X) fuel x d,
  enumerate ctxts place arrange f fuel x d = loop X place arrange f fuel x
    (if ctxts : bool
     then {| w_dict := d; w_at := None; w_msgs := []; w_ctxts := arrange 0 (List.map fst (d_ctxt d)); w_valid := true; w_n := 0 |}
     else {| w_dict := d; w_at := None; w_msgs := arrange 0 (List.map fst (d_entries d)); w_ctxts := []; w_valid := true; w_n := 0 |}) [].
Proof. now intros X []. Qed.

(** C97. An enumeration that returns has called the function exactly once for each message that was
    there when it began, and for none twice; it called it with the forms the message had just
    then; and it leaves the dictionary as the function's own calls make it. *)
Theorem C97_enumeration :
  forall (X : Type) (cs : bytes) (hist : list client_call) (ctxts : bool) place arrange (f : function X) (x x' : X) seen d',
  let d := run_history (new_dictionary cs) hist in
  some_order arrange -> returns ctxts place arrange f x d x' seen d' ->
  NoDup (List.map v_key seen) /\
  (forall k, concerns ctxts k -> lookup d k <> None -> In k (List.map v_key seen)) /\
  (forall k, In k (List.map v_key seen) -> concerns ctxts k /\ lookup d' k <> None) /\
  faithful f x d seen x' /\ d' = add_all d (all_ops seen).
Proof.
  intros X cs hist ctxts place arrange f x x' seen d' d A (fuel & R). rewrite enumerate_loop in R.
  pose proof (start_inv ctxts arrange d A (reached_good cs hist)) as I.
  destruct (loop_ends place arrange f ctxts d A fuel _ _ _ _ _ _ R I) as [(u & N)|(x1 & more & E & -> & F & -> & H1 & H2 & H3 & H4)].
  - now destruct ctxts.
  - discriminate N.
  - injection E as <-. cbn [app] in *. split; [exact H1|]. split; [exact H3|]. split; [intros k H; now destruct (H2 k H)|].
    split; destruct ctxts; auto.
Qed.

(** A function that only changes messages that are there (or adds to maps that are not being
    enumerated) is safe, whatever the order of the messages: the enumeration returns. foreach
    then visits the messages that were there when it began, and no others. *)
Theorem C97_in_place :
  forall (X : Type) (cs : bytes) (hist : list client_call) (ctxts : bool) place arrange (f : function X) (x : X),
  let d := run_history (new_dictionary cs) hist in
  some_order arrange -> in_place d f ->
  exists x' seen d', returns ctxts place arrange f x d x' seen d' /\
    (ctxts = false -> forall k, In k (List.map v_key seen) -> lookup d k <> None).
Proof.
  intros X cs hist ctxts place arrange f x d A P.
  pose proof (start_inv ctxts arrange d A (reached_good cs hist)) as I.
  destruct (calm_ends place arrange f ctxts d A P _ x _ [] eq_refl I) as (fuel & [[o seen] d'] & R & x' & E); [now destruct ctxts|].
  cbn [fst] in E. subst o. rewrite <- enumerate_loop in R. exists x', seen, d'.
  assert (R' : returns ctxts place arrange f x d x' seen d') by (exists fuel; exact R). split; [exact R'|].
  intros C k H. destruct (C97_enumeration X cs hist ctxts place arrange f x x' seen d' A R') as (_ & _ & H1 & F & ->). fold d in F.
  destruct (H1 k H) as (K1 & K2). fold d in K2. apply stored_all in K2 as [K2|(op & O & ->)]; [exact K2|].
  (* op was made by f in a visit of foreach *)
  assert (M : forall s y e, faithful f y e s x' -> (forall v, In v s -> concerns ctxts (v_key v)) -> In op (all_ops s) ->
              fst (op_key op) = None -> lookup d (op_key op) <> None).
  { clear - P C. induction s as [|[[k forms] ops] s IH]; intros y e Fa Cn O N; [destruct O|]. cbn [faithful] in Fa.
    destruct Fa as (_ & F2 & F3). unfold all_ops in O. cbn [List.map List.concat v_ops snd] in O. apply in_app_iff in O as [O|O].
    - rewrite <- F2 in O. destruct (P _ _ _ _ _ O) as [L|L]; [exact L|]. rewrite N in L.
      specialize (Cn _ (or_introl eq_refl)). unfold concerns, v_key in Cn. cbn [fst] in Cn. destruct (fst k); [congruence|destruct L].
    - apply (IH _ _ F3); auto. intros v H. apply Cn. now right. }
  apply (M _ _ _ F); auto.
  - intros v V. apply H1. now apply in_map.
  - unfold concerns in K1. destruct (fst (op_key op)); [congruence|reflexivity].
Qed.

(** Otherwise it is not: if one of the function's calls adds a key to a map being enumerated and the
    map is rehashed then, the enumeration does not return. *)
Theorem C97_rehash :
  forall (X : Type) (cs : bytes) (hist : list client_call) (ctxts : bool) place arrange (f : function X) (x : X) fuel o seen d' j,
  let d := run_history (new_dictionary cs) hist in
  some_order arrange -> enumerate ctxts place arrange f fuel x d = Some (o, seen, d') ->
  j < insertions d seen -> place j = Rehash -> exists u, o = Ub u.
Proof.
  intros X cs hist ctxts place arrange f x fuel o seen d' j d A R J H. rewrite enumerate_loop in R.
  pose proof (start_inv ctxts arrange d A (reached_good cs hist)) as I.
  destruct (loop_ends place arrange f ctxts d A fuel _ _ _ _ _ _ R I) as [N|(x1 & more & E & -> & F & -> & H1 & H2 & H3 & H4)].
  - now destruct ctxts.
  - exact N.
  - exfalso. cbn [app] in *. apply (H4 j); auto. destruct ctxts; cbn [w_n w_dict]; lia.
Qed.

(** That can happen in every dictionary that is not empty, to every function that begins by adding
    such a key. *)
Theorem C97_undefined :
  forall (X : Type) (cs : bytes) (hist : list client_call) (ctxts : bool) arrange (f : function X) (x : X) k0,
  let d := run_history (new_dictionary cs) hist in
  some_order arrange -> concerns ctxts k0 -> lookup d k0 <> None ->
  (forall k forms, lookup d k = Some forms -> concerns ctxts k ->
     exists op ops, snd (f x k forms d) = op :: ops /\ inserts d k op = true) ->
  undefined ctxts (fun _ => Rehash) arrange f x d.
Proof.
  intros X cs hist ctxts arrange f x k0 d A C0 L0 H.
  pose proof (start_inv ctxts arrange d A (reached_good cs hist)) as I. pose proof (reached_good cs hist) as G. fold d in G.
  (* one visit *)
  assert (V : forall w k rest, w_dict w = d -> inv ctxts d w [] -> w_msgs w = k :: rest ->
     exists u seen d', loop X (fun _ => Rehash) arrange f 1 x w [] = Some (Ub u, seen, d')).
  { intros w k rest D I1 Ms. cbn [loop]. rewrite Ms.
    assert (S : lookup (w_dict w) (w_at w, k) <> None /\ concerns ctxts (w_at w, k)).
    { apply (i_stored _ _ _ _ I1). unfold ahead. rewrite Ms. now left. }
    destruct S as (S1 & S2). apply forms_lookup in S1. rewrite D in *. destruct (H _ _ S1 S2) as (op & ops & E & Ins).
    destruct (f x (w_at w, k) (forms_at d (w_at w) k) d) as [x1 ops'] eqn:F. cbn [snd] in E. subst ops'. cbn [fold_left].
    assert (Stay : forall l w1, good (w_dict w1) -> w_valid w1 = false -> w_valid (fold_left (walk_add (fun _ => Rehash)) l w1) = false).
    { induction l as [|o l IH]; cbn [fold_left]; intros w1 G1 V1; auto. destruct (walk_add_count (fun _ => Rehash) w1 o k G1) as (_ & _ & _ & _ & Q).
      apply IH; auto. destruct (walk_add_fields (fun _ => Rehash) w1 o) as (_ & ->). now apply good_add. }
    cbv zeta. rewrite Stay.
    - eauto.
    - match goal with |- context [walk_add _ ?a _] => destruct (walk_add_fields (fun _ => Rehash) a op) as (_ & ->) end.
      now apply good_add.
    - match goal with |- context [walk_add _ ?a _] => destruct (walk_add_count (fun _ => Rehash) a op k G) as (_ & _ & Q & _) end.
      now apply Q. }
  unfold undefined. destruct ctxts.
  - assert (N : arrange 0 (List.map fst (d_ctxt d)) <> []).
    { intro N. destruct (i_cover _ _ _ _ I _ C0 L0) as [Z|(c & _ & Z)]; [exact Z|]. cbn [w_ctxts] in Z. rewrite N in Z. exact Z. }
    destruct (arrange 0 (List.map fst (d_ctxt d))) as [|c cs'] eqn:Ar; [congruence|].
    pose proof (inv_enter arrange true d A _ [] c cs' I eq_refl eq_refl) as I1.
    assert (N1 : w_msgs (enter arrange {| w_dict := d; w_at := None; w_msgs := []; w_ctxts := c :: cs'; w_valid := true; w_n := 0 |} c cs') <> []).
    { destruct (i_ctxts _ _ _ _ I c (or_introl eq_refl)) as (Q & _). cbn [w_dict] in Q. apply (has_ctxt _ _ G) in Q as (i & Q).
      cbn [enter w_msgs w_dict]. intro N1. unfold lookup in Q; cbn [fst snd] in Q. unfold ctxt_or_new in N1.
      destruct (assoc c (d_ctxt d)) as [es|]; [|congruence]. destruct es as [|e es]; [now apply Q|].
      pose proof (Permutation_length (A (S (length cs')) (List.map fst (e :: es)))) as PL. rewrite N1 in PL. discriminate. }
    set (w1 := enter arrange {| w_dict := d; w_at := None; w_msgs := []; w_ctxts := c :: cs'; w_valid := true; w_n := 0 |} c cs') in *.
    destruct (w_msgs w1) as [|k rest] eqn:Ms; [congruence|]. destruct (V w1 k rest eq_refl I1 Ms) as (u & seen & d' & R).
    exists 2, u, seen, d'. rewrite enumerate_loop. rewrite Ar.
    change (loop X (fun _ => Rehash) arrange f 1 x w1 [] = Some (Ub u, seen, d')). exact R.
  - assert (N : arrange 0 (List.map fst (d_entries d)) <> []).
    { intro N. destruct (i_cover _ _ _ _ I _ C0 L0) as [Z|(c & _ & Z)]; [|exact Z]. unfold ahead in Z. cbn [w_msgs] in Z. rewrite N in Z. exact Z. }
    destruct (arrange 0 (List.map fst (d_entries d))) as [|k rest] eqn:Ar; [congruence|].
    edestruct V as (u & seen & d' & R); [| exact I | reflexivity |]; [reflexivity|]. exists 1, u, seen, d'. rewrite enumerate_loop, Ar. exact R.
Qed.

(** Functions that overwrite messages that are there, and one that adds "b2", which is not there. *)
Definition ex_hist : list client_call :=
  [Add (AddSingular None (bs "a") (bs "x")); Add (AddSingular (Some (bs "m")) (bs "a") (bs "y"));
   Add (AddSingular None (bs "b") (bs "z")); Add (AddSingular (Some (bs "n")) (bs "a") (bs "w"))].
Definition add_b2 : function nat := fun n k forms d => (S n, [AddSingular (fst k) (bs "b2") (bs "!")]).
Definition fixed : function nat := fun n k forms d => (S n, [AddSingular None (bs "a") (bs "B"); AddPlural (Some (bs "m")) (bs "a") (bs "as") [bs "1"; bs "2"]]).
Example C97_nonvacuous :
  let d := run_history (new_dictionary utf8) ex_hist in
  some_order (fun _ l => rev l) /\ in_place d fixed /\
  (exists x' seen d', returns false (fun _ => Rehash) (fun _ l => rev l) fixed 0 d x' seen d' /\
     List.map v_key seen = [(None, bs "b"); (None, bs "a")] /\ List.map (fun v => snd (fst v)) seen = [[bs "z"]; [bs "B"]]) /\
  (exists x' seen d', returns true (fun _ => Rehash) (fun _ l => rev l) fixed 0 d x' seen d' /\
     List.map v_key seen = [(Some (bs "n"), bs "a"); (Some (bs "m"), bs "a")]) /\
  (exists x' seen d', returns false (fun _ => Ahead 0) (fun _ l => l) add_b2 0 d x' seen d' /\
     List.map v_key seen = [(None, bs "a"); (None, bs "b2"); (None, bs "b")] /\ insertions d seen = 1) /\
  (forall k forms, lookup d k = Some forms -> concerns false k -> exists op ops, snd (add_b2 0 k forms d) = op :: ops /\ inserts d k op = true).
Proof.
  cbv zeta. split; [intros n l; apply Permutation_rev|]. split.
  { intros x k forms d' op [<-|[<-|[]]]; left; vm_compute; discriminate. }
  split. { eexists _, _, _. split; [exists 9; vm_compute; reflexivity|]. vm_compute. auto. }
  split. { eexists _, _, _. split; [exists 9; vm_compute; reflexivity|]. vm_compute. auto. }
  split. { eexists _, _, _. split; [exists 9; vm_compute; reflexivity|]. vm_compute. auto. }
  intros [[c|] i] forms _ C; [discriminate C|]. eexists _, _. split; [reflexivity|]. vm_compute. reflexivity.
Qed.

Print Assumptions C97_enumeration.
Print Assumptions C97_in_place.
Print Assumptions C97_rehash.
Print Assumptions C97_undefined.
