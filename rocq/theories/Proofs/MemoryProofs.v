(** Facts about Model/Memory.v. *)
From Coq Require Import Lia.
From Verif.Model Require Import Base Log PluralForms Dictionary Memory.
From Verif.Spec Require Import DictSpec MemorySpec.
From Verif.Proofs Require Import BaseFacts DictProofs.
Local Open Scope list_scope.

Lemma assoc_set_twice : forall V (m : list (bytes * V)) k v w,
  assoc_set k v (assoc_set k w m) = assoc_set k v m.
Proof.
  induction m as [|[k' v'] m IH]; intros k v w; cbn.
  - rewrite bytes_eqb_refl. reflexivity.
  - destruct (bytes_eqb k k') eqn:E; cbn; rewrite E; [reflexivity|]. now rewrite IH.
Qed.

(** the dictionary with [v] as the forms of a message *)
Definition put_vec (ctxt : option bytes) (i : bytes) (v : list bytes) (d : dictionary) : dictionary :=
  match ctxt with
  | None => set_entries d (assoc_set i v (d_entries d))
  | Some c => set_ctxt d (assoc_set c (assoc_set i v (ctxt_or_new (d_ctxt d) c)) (d_ctxt d))
  end.
Definition old_vec (d : dictionary) (c : option bytes) (i : bytes) : list bytes :=
  match lookup d (c, i) with Some v => v | None => [] end.

Lemma put_vec_twice : forall c i v w d, put_vec c i v (put_vec c i w d) = put_vec c i v d.
Proof.
  intros [c|] i v w d; unfold put_vec, set_ctxt, set_entries; cbn.
  - unfold ctxt_or_new at 1. rewrite assoc_set_same. now rewrite !assoc_set_twice.
  - now rewrite assoc_set_twice.
Qed.
Lemma put_vec_same : forall c i v d, lookup d (c, i) = Some v -> put_vec c i v d = d.
Proof.
  intros [c|] i v d H; unfold lookup in H; cbn in H; unfold put_vec.
  - unfold ctxt_or_new. destruct (assoc c (d_ctxt d)) eqn:E; [|discriminate].
    rewrite (assoc_set_id _ _ _ H). assert (X := assoc_set_id (d_ctxt d) c e E).
    unfold ctxt_entries, entries in *. rewrite X. now destruct d.
  - rewrite (assoc_set_id _ _ _ H). now destruct d.
Qed.
Lemma lookup_put_same : forall c i v d, lookup (put_vec c i v d) (c, i) = Some v.
Proof.
  intros [c|] i v d; unfold lookup, put_vec; cbn; now rewrite ?assoc_set_same.
Qed.
Lemma lookup_put_other : forall c i v d k, k <> (c, i) -> lookup (put_vec c i v d) k = lookup d k.
Proof.
  intros [c|] i v d [[c'|] i'] H; unfold lookup, put_vec; cbn; try reflexivity.
  - destruct (list_eq_dec Ascii.ascii_dec c' c) as [->|N].
    + rewrite assoc_set_same. rewrite assoc_set_other by congruence. unfold ctxt_or_new.
      now destruct (assoc c (d_ctxt d)).
    + now rewrite assoc_set_other.
  - rewrite assoc_set_other; [reflexivity|congruence].
Qed.

(** everything but the catalogue *)
Definition settings (d : dictionary) := (d_charset d, d_plural d, d_has_fallback d, d_fallback d).
Lemma settings_put : forall c i v d, settings (put_vec c i v d) = settings d.
Proof. now intros [c|]. Qed.

Lemma add_is_put : forall d op,
  fst (add_translation d op) =
  put_vec (fst (op_key op)) (snd (op_key op)) (new_forms (lookup d (op_key op)) op) d.
Proof.
  intros d [[c|] i s|[c|] i pl ss]; cbn [op_key fst snd];
    unfold add_translation, add_plural, add_singular, add_ctxt_plural, add_ctxt_singular.
  - pose proof (put_singular_fst (entry_or_new (ctxt_or_new (d_ctxt d) c) i) s) as P.
    destruct (put_singular _ _) as [v col]; cbn in P; subst v. cbn [fst put_vec new_forms]. do 2 f_equal. f_equal.
    unfold lookup, entry_or_new, ctxt_or_new; cbn [fst snd]. destruct (assoc c (d_ctxt d)) as [es|]; [|reflexivity].
    now destruct (assoc i es) as [[|]|].
  - pose proof (put_singular_fst (entry_or_new (d_entries d) i) s) as P.
    destruct (put_singular _ _) as [v col]; cbn in P; subst v. cbn [fst put_vec new_forms]. do 2 f_equal.
    unfold lookup, entry_or_new; cbn [fst snd]. now destruct (assoc i (d_entries d)) as [[|]|].
  - pose proof (put_plural_fst (entry_or_new (ctxt_or_new (d_ctxt d) c) i) ss) as P.
    destruct (put_plural _ _) as [v col]; cbn in P; subst v. reflexivity.
  - pose proof (put_plural_fst (entry_or_new (d_entries d) i) ss) as P.
    destruct (put_plural _ _) as [v col]; cbn in P; subst v. reflexivity.
Qed.

Section Calls.
  Variable grants : nat -> bool.
  Variable room told : bool.
  Let luck := forall n, grants n = true.

  Lemma alloc_cases : forall s,
    let s' := {| ms_dict := ms_dict s; ms_asked := S (ms_asked s); ms_log := ms_log s |} in
    alloc grants s = (Fine tt, s') \/ (alloc grants s = (BadAlloc, s') /\ ~ luck).
  Proof.
    intro s. unfold alloc, bind, request. destruct (grants (ms_asked s)) eqn:E; [now left|right].
    split; [reflexivity|]. intro L. specialize (L (ms_asked s)). congruence.
  Qed.
  Lemma write_put : forall c i v s,
    write_vec c i v s = (Fine tt, {| ms_dict := put_vec c i v (ms_dict s); ms_asked := ms_asked s; ms_log := ms_log s |}).
  Proof. now intros [c|] i v s. Qed.

  (** the dictionary [d], possibly with a context that is empty *)
  Definition alike_at (d d' : dictionary) : Prop :=
    settings d' = settings d /\ forall k, lookup d' k = lookup d k.

  Lemma vec_at_cases : forall c i s,
    exists f s', vec_at grants c i s = (f, s') /\ ms_log s' = ms_log s /\
      match f with
      | Fine v => v = old_vec (ms_dict s) c i /\ ms_dict s' = put_vec c i v (ms_dict s)
      | BadAlloc => alike_at (ms_dict s) (ms_dict s') /\ ~ luck
      | Terminate => False
      end.
  Proof.
    intros [c|] i s; unfold vec_at, old_vec; cbv beta.
    - unfold bind at 1, get_dict at 1. cbv iota beta.
      destruct (assoc c (d_ctxt (ms_dict s))) as [es|] eqn:E.
      + unfold bind at 1, ret at 1. unfold bind at 1, get_dict at 1. cbv iota beta zeta.
        unfold ctxt_or_new at 1. rewrite E.
        destruct (assoc i es) as [v|] eqn:E'.
        * do 2 eexists. split; [reflexivity|]. split; [reflexivity|].
          assert (L : lookup (ms_dict s) (Some c, i) = Some v) by (unfold lookup; cbn; now rewrite E).
          rewrite L. split; [reflexivity|]. now rewrite put_vec_same.
        * unfold bind at 1. destruct (alloc_cases s) as [->|[-> N]]; cbv iota beta.
          -- do 2 eexists. split; [reflexivity|]. split; [reflexivity|].
             assert (L : lookup (ms_dict s) (Some c, i) = None) by (unfold lookup; cbn; now rewrite E).
             rewrite L. split; [reflexivity|]. cbn. unfold ctxt_or_new. now rewrite E.
          -- do 2 eexists. split; [reflexivity|]. split; [reflexivity|]. split; [now split|exact N].
      + unfold bind at 1. unfold bind at 1. destruct (alloc_cases s) as [->|[-> N]]; cbv iota beta.
        2: { do 2 eexists. split; [reflexivity|]. split; [reflexivity|]. split; [now split|exact N]. }
        unfold put_dict at 1. cbv iota beta. cbn [ms_dict ms_asked ms_log].
        unfold bind at 1, get_dict at 1. cbv iota beta zeta. cbn [ms_dict ms_asked ms_log].
        unfold ctxt_or_new at 1. cbn [d_ctxt set_ctxt]. rewrite assoc_set_same. cbn [assoc].
        unfold bind at 1.
        match goal with |- context [alloc grants ?s1] => destruct (alloc_cases s1) as [->|[-> N]]; cbv iota beta end.
        * do 2 eexists. split; [reflexivity|]. split; [reflexivity|].
          assert (L : lookup (ms_dict s) (Some c, i) = None) by (unfold lookup; cbn; now rewrite E).
          rewrite L. split; [reflexivity|]. cbn. unfold ctxt_or_new, set_ctxt. rewrite E, assoc_set_same. cbn.
          now rewrite assoc_set_twice.
        * do 2 eexists. split; [reflexivity|]. split; [reflexivity|]. split; [|exact N]. split; [reflexivity|].
          intros [[c'|] i']; unfold lookup; cbn; [|reflexivity].
          destruct (list_eq_dec Ascii.ascii_dec c' c) as [->|N'].
          -- rewrite assoc_set_same, E. reflexivity.
          -- now rewrite assoc_set_other.
    - unfold bind at 1, get_dict at 1. cbv iota beta.
      destruct (assoc i (d_entries (ms_dict s))) as [v|] eqn:E.
      + do 2 eexists. split; [reflexivity|]. split; [reflexivity|].
        assert (L : lookup (ms_dict s) (None, i) = Some v) by exact E.
        rewrite L. split; [reflexivity|]. now rewrite put_vec_same.
      + unfold bind at 1. destruct (alloc_cases s) as [->|[-> N]]; cbv iota beta.
        * do 2 eexists. split; [reflexivity|]. split; [reflexivity|].
          assert (L : lookup (ms_dict s) (None, i) = None) by exact E.
          rewrite L. split; [reflexivity|]. reflexivity.
        * do 2 eexists. split; [reflexivity|]. split; [reflexivity|]. split; [now split|exact N].
  Qed.

  Lemma assign_each_cases : forall c i d new old done s,
    ms_dict s = put_vec c i (done ++ old) d ->
    exists f s', assign_each grants c i done old new s = (f, s') /\ ms_log s' = ms_log s /\
      match f with
      | Fine _ => ms_dict s' = put_vec c i (done ++ new) d
      | BadAlloc => (exists n, n <= length new /\ n <= length old /\
                               ms_dict s' = put_vec c i (done ++ firstn n new ++ skipn n old) d) /\ ~ luck
      | Terminate => False
      end.
  Proof.
    intros c i d. induction new as [|x new IH]; intros [|y old] done s D; cbn [assign_each].
    - rewrite write_put. do 2 eexists. split; [reflexivity|]. split; [reflexivity|]. cbn.
      now rewrite D, put_vec_twice, !app_nil_r.
    - rewrite write_put. do 2 eexists. split; [reflexivity|]. split; [reflexivity|]. cbn.
      now rewrite D, put_vec_twice, !app_nil_r.
    - unfold bind at 1. destruct (alloc_cases s) as [->|[-> N]]; cbv iota beta.
      + rewrite write_put. do 2 eexists. split; [reflexivity|]. split; [reflexivity|]. cbn.
        now rewrite D, put_vec_twice.
      + do 2 eexists. split; [reflexivity|]. split; [reflexivity|]. split; [|exact N]. exists 0.
        repeat split; [cbn; lia|cbn; lia|]. exact D.
    - unfold bind at 1. destruct (alloc_cases s) as [->|[-> N]]; cbv iota beta.
      + unfold bind at 1. rewrite write_put. cbv iota beta. cbn [ms_dict ms_asked ms_log].
        edestruct (IH old (done ++ [x])) as (f & s' & R & LG & C); cycle 1.
        { exists f, s'. split; [exact R|]. split; [rewrite LG; reflexivity|].
          destruct f; [|destruct C as ((n & A & B & C) & N)|exact C].
          - rewrite C. now rewrite <- app_assoc.
          - split; [|exact N]. exists (S n). cbn [length firstn skipn]. repeat split; [lia|lia|].
            rewrite C. now rewrite <- app_assoc. }
        cbn [ms_dict]. rewrite D, put_vec_twice. now rewrite <- app_assoc.
      + do 2 eexists. split; [reflexivity|]. split; [reflexivity|]. split; [|exact N]. exists 0.
        repeat split; [cbn; lia|cbn; lia|]. exact D.
  Qed.

  Lemma vector_assign_cases : forall c i d old new s,
    ms_dict s = put_vec c i old d ->
    exists f s', vector_assign grants room c i old new s = (f, s') /\ ms_log s' = ms_log s /\
      match f with
      | Fine _ => ms_dict s' = put_vec c i new d
      | BadAlloc => (exists n, n <= length new /\ n <= length old /\
                               ms_dict s' = put_vec c i (firstn n new ++ skipn n old) d) /\ ~ luck
      | Terminate => False
      end.
  Proof.
    intros c i d old new s D. unfold vector_assign. destruct room.
    - exact (assign_each_cases c i d new old [] s D).
    - unfold bind at 1. destruct (alloc_cases s) as [->|[-> N]]; cbv iota beta.
      + rewrite write_put. do 2 eexists. split; [reflexivity|]. split; [reflexivity|]. cbn.
        now rewrite D, put_vec_twice.
      + do 2 eexists. split; [reflexivity|]. split; [reflexivity|]. split; [|exact N]. exists 0.
        repeat split; [lia|lia|]. exact D.
  Qed.

  Lemma insert_pieces_cases : forall ps t s,
    exists n s', insert_pieces grants ps t s = (Fine (t ++ concat (firstn n ps)), s') /\
      ms_log s' = ms_log s /\ ms_dict s' = ms_dict s /\ (luck -> n = length ps).
  Proof.
    induction ps as [|p ps IH]; intros t s; cbn [insert_pieces].
    - exists 0, s. cbn. rewrite app_nil_r. now repeat split.
    - unfold bind at 1, request at 1. cbv iota beta. destruct (grants (ms_asked s)) eqn:G.
      + destruct (IH (t ++ p) {| ms_dict := ms_dict s; ms_asked := S (ms_asked s); ms_log := ms_log s |})
          as (n & s' & R & LG & D & L).
        exists (S n), s'. cbn [firstn concat length]. rewrite R, <- app_assoc. repeat split; auto.
      + eexists 0, _. split; [cbn; rewrite app_nil_r; reflexivity|]. repeat split.
        intro L. rewrite L in G. discriminate.
  Qed.

  Lemma warn_cases : forall ps s,
    exists f s', warn grants told ps s = (f, s') /\ ms_dict s' = ms_dict s /\
      match f with
      | Fine _ => if told then exists n, ms_log s' = ms_log s ++ [{| lg_level := LWarning; lg_text := concat (firstn n ps) |}] /\
                                         (luck -> n = length ps)
                  else ms_log s' = ms_log s
      | BadAlloc => told = true /\ ms_log s' = ms_log s /\ ~ luck
      | Terminate => told = true /\ ms_log s' = ms_log s /\ ~ luck
      end.
  Proof.
    intros ps s. unfold warn. destruct told; [|do 2 eexists; split; [reflexivity|split; reflexivity]].
    unfold bind at 1. destruct (alloc_cases s) as [->|[-> N]]; cbv iota beta;
      [|do 2 eexists; split; [reflexivity|]; split; [reflexivity|]; split; [reflexivity|]; split; [reflexivity|exact N]].
    set (s1 := {| ms_dict := ms_dict s; ms_asked := S (ms_asked s); ms_log := ms_log s |}).
    unfold bind at 1. destruct (insert_pieces_cases ps [] s1) as (n & s' & R & LG & D & L). rewrite R. cbv iota beta.
    unfold bind at 1, request at 1. cbv iota beta. cbn [app]. destruct (grants (ms_asked s')) eqn:G.
    - do 2 eexists. split; [reflexivity|]. split; [exact D|]. cbn [ms_log]. exists n. split; [now rewrite LG|exact L].
    - do 2 eexists. split; [reflexivity|]. split; [exact D|]. split; [reflexivity|]. split; [exact LG|].
      intro L'. rewrite L' in G. discriminate.
  Qed.

  Lemma concat_print : forall v, concat (print_pieces v) = print_strs v.
  Proof.
    intros [|x v]; [reflexivity|]. cbn [print_pieces print_strs concat]. do 3 f_equal.
    induction v as [|y v IH]; [reflexivity|]. cbn [print_pieces_tail print_strs_tail concat].
    now rewrite IH.
  Qed.


  Lemma pieces_plural : forall c i pl old new,
    concat ([collision] ++ match c with Some c => [c; bs "', '"] | None => [] end
            ++ [i; bs "', '"; pl; bs "' -> ["] ++ print_pieces old ++ [bs "] vs ["]
            ++ print_pieces new ++ [bs "]"; [c_lf]])
    = collision_text old (AddPlural c i pl new) ++ [c_lf].
  Proof.
    intros c i pl old new. rewrite !concat_app, !concat_print, !print_strs_listed. unfold collision_text.
    destruct c as [c|]; cbn [concat listed]; unfold quoted, collision; rewrite <- !app_assoc; cbn [app]; reflexivity.
  Qed.
  Lemma pieces_singular : forall c i s v0 vs,
    concat ([collision] ++ match c with
                | Some c => [c; bs "', '"; i; bs "' -> '"; v0; bs "' vs '"; s]
                | None => [i; bs "' -> '"; s; bs "' vs '"; v0]
                end ++ [bs "'"; [c_lf]])
    = collision_text (v0 :: vs) (AddSingular c i s) ++ [c_lf].
  Proof.
    intros c i s v0 vs. rewrite !concat_app. unfold collision_text.
    destruct c as [c|]; cbn [concat listed hd]; unfold quoted, collision; rewrite <- !app_assoc; cbn [app]; reflexivity.
  Qed.

  (** what the whole call does *)
  Definition said_ok (op : add_op) (old : list bytes) (said : list log_stmt) : Prop :=
    exists t u, said = [{| lg_level := LWarning; lg_text := t |}] /\
      t ++ u = collision_text old op ++ [c_lf] /\ (luck -> u = []).

  Definition outcome_of (op : add_op) (s : mem_state) (f : fate unit) (s' : mem_state) : Prop :=
    let d := ms_dict s in let k := op_key op in
    exists said, ms_log s' = ms_log s ++ said /\
      match f with
      | Fine _ => ms_dict s' = fst (add_translation d op) /\
                  (said = [] \/ (told = true /\ exists old, overwrites op (lookup d k) old /\ said_ok op old said)) /\
                  (said = [] -> told = true -> forall old, ~ overwrites op (lookup d k) old)
      | BadAlloc => (settings (ms_dict s') = settings d /\ (forall k', k' <> k -> lookup (ms_dict s') k' = lookup d k') /\
                     half_done op (lookup d k) (lookup (ms_dict s') k)) /\ ~ luck /\
                    (said = [] \/ (told = true /\ exists old, overwrites op (lookup d k) old /\ said_ok op old said))
      | Terminate => (settings (ms_dict s') = settings d /\ forall k', lookup (ms_dict s') k' = lookup d k') /\ ~ luck /\
                     told = true /\ said = [] /\ exists old, overwrites op (lookup d k) old
      end.

  Lemma half_put : forall op d c i v, op_key op = (c, i) ->
    half_done op (lookup d (c, i)) (Some v) ->
    settings (put_vec c i v d) = settings d /\
    (forall k', k' <> op_key op -> lookup (put_vec c i v d) k' = lookup d k') /\
    half_done op (lookup d (op_key op)) (lookup (put_vec c i v d) (op_key op)).
  Proof.
    intros op d c i v K H. rewrite K. split; [apply settings_put|]. split; [intros; now apply lookup_put_other|].
    now rewrite lookup_put_same.
  Qed.

  Lemma old_vec_cases : forall d c i,
    (old_vec d c i = [] /\ (lookup d (c, i) = None \/ lookup d (c, i) = Some []))
    \/ lookup d (c, i) = Some (old_vec d c i).
  Proof. intros d c i. unfold old_vec. destruct (lookup d (c, i)) as [v|]; auto. Qed.

  Lemma warn_said : forall ps op old s,
    concat ps = collision_text old op ++ [c_lf] ->
    exists f s', warn grants told ps s = (f, s') /\ ms_dict s' = ms_dict s /\
      match f with
      | Fine _ => if told then exists said, ms_log s' = ms_log s ++ said /\ said_ok op old said
                  else ms_log s' = ms_log s
      | BadAlloc => told = true /\ ms_log s' = ms_log s /\ ~ luck
      | Terminate => told = true /\ ms_log s' = ms_log s /\ ~ luck
      end.
  Proof.
    intros ps op old s C. destruct (warn_cases ps s) as (f & s' & R & D & H). exists f, s'. split; [exact R|].
    split; [exact D|]. destruct f; try exact H. destruct told; [|exact H]. destruct H as (n & L & N).
    eexists. split; [exact L|]. exists (concat (firstn n ps)), (concat (skipn n ps)). split; [reflexivity|].
    split.
    - rewrite <- concat_app, firstn_skipn. exact C.
    - intro Y. rewrite (N Y), skipn_all. reflexivity.
  Qed.

  Lemma add_mem_cases : forall op s,
    exists f s', add_mem grants room told op s = (f, s') /\ outcome_of op s f s'.
  Proof.
    intros op s. destruct op as [c i m|c i pl new]; cbn [add_mem].
    - (* one form *)
      unfold add_singular_mem, bind at 1. destruct (vec_at_cases c i s) as (f & s1 & R & LG & H). rewrite R.
      destruct f as [vec| |]; [destruct H as [V D]|destruct H as [[A1 A2] N]|easy]; cbv iota beta.
      2: { exists BadAlloc, s1. split; [reflexivity|]. exists []. rewrite app_nil_r. split; [exact LG|].
           split; [|split; [exact N|now left]]. split; [exact A1|]. split; [intros; apply A2|].
           cbn [op_key]. rewrite A2. constructor. }
      assert (FIN : fst (add_translation (ms_dict s) (AddSingular c i m)) = put_vec c i (m :: tl vec) (ms_dict s)).
      { rewrite add_is_put. cbn [op_key fst snd new_forms]. rewrite V. unfold old_vec.
        now destruct (lookup (ms_dict s) (c, i)) as [[|]|]. }
      destruct vec as [|v0 vs].
      + assert (OV : forall old, ~ overwrites (AddSingular c i m) (lookup (ms_dict s) (c, i)) old).
        { intros old (E & N & _). unfold old_vec in V. rewrite E in V. now subst. }
        unfold bind at 1. destruct (alloc_cases s1) as [->|[-> N]]; cbv iota beta.
        * rewrite write_put. do 2 eexists. split; [reflexivity|]. exists []. rewrite app_nil_r. split; [exact LG|].
          cbn [ms_dict]. rewrite D, put_vec_twice, FIN. split; [reflexivity|]. split; [now left|]. intros _ _. exact OV.
        * do 2 eexists. split; [reflexivity|]. exists []. rewrite app_nil_r. split; [exact LG|].
          cbn [ms_dict]. rewrite D. split; [|split; [exact N|now left]]. apply half_put; [reflexivity|].
          destruct (old_vec_cases (ms_dict s) c i) as [[_ [E|E]]|E].
          -- rewrite E. constructor.
          -- rewrite E. constructor.
          -- rewrite E, <- V. constructor.
      + assert (E : lookup (ms_dict s) (c, i) = Some (v0 :: vs)).
        { unfold old_vec in V. destruct (lookup (ms_dict s) (c, i)) as [v|]; [now subst|discriminate]. }
        destruct (bytes_eqb v0 m) eqn:Q; cbn [negb].
        * apply bytes_eqb_eq in Q. subst m.
          do 2 eexists. split; [reflexivity|]. exists []. rewrite app_nil_r. split; [exact LG|].
          split; [now rewrite D, FIN|]. split; [now left|]. intros _ _ old (E' & _ & N). cbn [op_key] in E'.
          rewrite E in E'. injection E' as <-. unfold op_key in N; cbn [fst] in N. rewrite ?E in N. now apply N.
        * assert (OV : overwrites (AddSingular c i m) (lookup (ms_dict s) (c, i)) (v0 :: vs)).
          { split; [exact E|]. split; [discriminate|]. cbn [new_forms]. intro X. injection X as X.
            subst m. rewrite bytes_eqb_refl in Q. discriminate. }
          unfold bind at 1.
          destruct (warn_said _ _ _ s1 (pieces_singular c i m v0 vs)) as (f & s2 & R2 & D2 & H2).
          cbv iota beta zeta in R2 |- *. rewrite R2.
          destruct f as [[]| |]; cbv iota beta.
          2: { destruct H2 as (T & L2 & N). do 2 eexists. split; [reflexivity|]. exists []. rewrite app_nil_r.
               split; [now rewrite L2|]. rewrite D2, D. split; [|split; [exact N|now left]].
               apply half_put; [reflexivity|]. rewrite E. constructor. }
          2: { destruct H2 as (T & L2 & N). do 2 eexists. split; [reflexivity|]. exists []. rewrite app_nil_r.
               split; [now rewrite L2|]. rewrite D2, D. split.
               - split; [apply settings_put|]. intro k'. rewrite (put_vec_same _ _ _ _ E). reflexivity.
               - split; [exact N|]. split; [exact T|]. split; [reflexivity|]. eexists. exact OV. }
          assert (SAID : exists said, ms_log s2 = ms_log s ++ said /\
            (said = [] \/ (told = true /\ exists old, overwrites (AddSingular c i m) (lookup (ms_dict s) (c, i)) old /\ said_ok (AddSingular c i m) old said)) /\
            (said = [] -> told = true -> False)).
          { destruct told.
            - destruct H2 as (said & L2 & K2). exists said. rewrite L2, LG. split; [reflexivity|].
              split; [right; split; [reflexivity|]; eexists; split; [exact OV|exact K2]|].
              intros -> _. destruct K2 as (t & u & K & _). discriminate.
            - exists []. rewrite app_nil_r. split; [congruence|]. split; [now left|discriminate]. }
          destruct SAID as (said & SL & SO & SN).
          unfold bind at 1. destruct (alloc_cases s2) as [->|[-> N]]; cbv iota beta.
          -- rewrite write_put. do 2 eexists. split; [reflexivity|]. exists said. split; [exact SL|].
             cbn [ms_dict]. rewrite D2, D, put_vec_twice, FIN. split; [reflexivity|]. split; [exact SO|].
             intros X T. now destruct (SN X T).
          -- do 2 eexists. split; [reflexivity|]. exists said. split; [exact SL|]. cbn [ms_dict].
             rewrite D2, D. split; [|split; [exact N|exact SO]]. apply half_put; [reflexivity|]. rewrite E. constructor.
    - (* the list *)
      unfold add_plural_mem, bind at 1. destruct (vec_at_cases c i s) as (f & s1 & R & LG & H). rewrite R.
      destruct f as [vec| |]; [destruct H as [V D]|destruct H as [[A1 A2] N]|easy]; cbv iota beta.
      2: { exists BadAlloc, s1. split; [reflexivity|]. exists []. rewrite app_nil_r. split; [exact LG|].
           split; [|split; [exact N|now left]]. split; [exact A1|]. split; [intros; apply A2|].
           cbn [op_key]. rewrite A2. constructor. }
      assert (FIN : fst (add_translation (ms_dict s) (AddPlural c i pl new)) = put_vec c i new (ms_dict s)).
      { rewrite add_is_put. reflexivity. }
      destruct vec as [|v0 vs]; cbn [is_nil].
      + assert (OV : forall old, ~ overwrites (AddPlural c i pl new) (lookup (ms_dict s) (c, i)) old).
        { intros old (E & N & _). unfold old_vec in V. rewrite E in V. now subst. }
        destruct (vector_assign_cases c i (ms_dict s) [] new s1 D) as (f & s2 & R2 & L2 & H2). rewrite R2.
        exists f, s2. split; [reflexivity|]. exists []. rewrite app_nil_r. split; [congruence|].
        destruct f as [[]| |]; [|destruct H2 as ((n & A & B & C) & N)|easy].
        * rewrite H2, FIN. split; [reflexivity|]. split; [now left|]. intros _ _. exact OV.
        * split; [|split; [exact N|now left]]. rewrite C. apply half_put; [reflexivity|].
          assert (n = 0) by (cbn in B; lia). subst n. cbn.
          destruct (old_vec_cases (ms_dict s) c i) as [[_ [E|E]]|E].
          -- rewrite E. constructor.
          -- rewrite E. constructor.
          -- rewrite E, <- V. constructor.
      + assert (E : lookup (ms_dict s) (c, i) = Some (v0 :: vs)).
        { unfold old_vec in V. destruct (lookup (ms_dict s) (c, i)) as [v|]; [now subst|discriminate]. }
        destruct (strs_eqb (v0 :: vs) new) eqn:Q; cbn [negb].
        * apply strs_eqb_eq in Q. subst new.
          do 2 eexists. split; [reflexivity|]. exists []. rewrite app_nil_r. split; [exact LG|].
          split; [now rewrite D, FIN|]. split; [now left|]. intros _ _ old (E' & _ & N). cbn [op_key] in E'.
          rewrite E in E'. injection E' as <-. now apply N.
        * assert (OV : overwrites (AddPlural c i pl new) (lookup (ms_dict s) (c, i)) (v0 :: vs)).
          { split; [exact E|]. split; [discriminate|]. cbn [new_forms]. intro X.
            subst new. assert (Y := proj2 (strs_eqb_eq (v0 :: vs) (v0 :: vs)) eq_refl). congruence. }
          unfold bind at 1.
          destruct (warn_said _ _ _ s1 (pieces_plural c i pl (v0 :: vs) new)) as (f & s2 & R2 & D2 & H2).
          cbv iota beta zeta in R2 |- *. rewrite R2.
          destruct f as [[]| |]; cbv iota beta.
          2: { destruct H2 as (T & L2 & N). do 2 eexists. split; [reflexivity|]. exists []. rewrite app_nil_r.
               split; [now rewrite L2|]. rewrite D2, D. split; [|split; [exact N|now left]].
               apply half_put; [reflexivity|]. rewrite E. constructor. }
          2: { destruct H2 as (T & L2 & N). do 2 eexists. split; [reflexivity|]. exists []. rewrite app_nil_r.
               split; [now rewrite L2|]. rewrite D2, D. split.
               - split; [apply settings_put|]. intro k'. rewrite (put_vec_same _ _ _ _ E). reflexivity.
               - split; [exact N|]. split; [exact T|]. split; [reflexivity|]. eexists. exact OV. }
          assert (SAID : exists said, ms_log s2 = ms_log s ++ said /\
            (said = [] \/ (told = true /\ exists old, overwrites (AddPlural c i pl new) (lookup (ms_dict s) (c, i)) old /\ said_ok (AddPlural c i pl new) old said)) /\
            (said = [] -> told = true -> False)).
          { destruct told.
            - destruct H2 as (said & L2 & K2). exists said. rewrite L2, LG. split; [reflexivity|].
              split; [right; split; [reflexivity|]; eexists; split; [exact OV|exact K2]|].
              intros -> _. destruct K2 as (t & u & K & _). discriminate.
            - exists []. rewrite app_nil_r. split; [congruence|]. split; [now left|discriminate]. }
          destruct SAID as (said & SL & SO & SN).
          assert (D2' : ms_dict s2 = put_vec c i (v0 :: vs) (ms_dict s)) by congruence.
          destruct (vector_assign_cases c i (ms_dict s) (v0 :: vs) new s2 D2') as (f & s3 & R3 & L3 & H3). rewrite R3.
          exists f, s3. split; [reflexivity|]. exists said. split; [congruence|].
          destruct f as [[]| |]; [|destruct H3 as ((n & A & B & C) & N)|easy].
          -- rewrite H3, FIN. split; [reflexivity|]. split; [exact SO|]. intros X T. now destruct (SN X T).
          -- split; [|split; [exact N|exact SO]]. rewrite C. apply half_put; [reflexivity|]. rewrite E.
             now apply (first_forms_only _ c i pl).
  Qed.
End Calls.

Lemma add_call_cases : forall grants room told d op f d' log,
  add_call grants room told d op = (f, d', log) ->
  outcome_of grants told op {| ms_dict := d; ms_asked := 0; ms_log := [] |} f
    {| ms_dict := d'; ms_asked := 0; ms_log := log |}.
Proof.
  intros grants room told d op f d' log. unfold add_call.
  destruct (add_mem_cases grants room told op {| ms_dict := d; ms_asked := 0; ms_log := [] |}) as (f1 & s1 & R & O).
  rewrite R. injection 1 as <- <- <-. destruct s1. exact O.
Qed.

Lemma history_lucky : forall l d oks d' k, attempts l d = Some (oks, d') -> lucky l oks k ->
  lookup d' k = fold_left spec_add (map at_op l) (lookup d) k.
Proof.
  assert (EXT : forall ops m m' k, (forall k, m k = m' k) -> fold_left spec_add ops m k = fold_left spec_add ops m' k).
  { induction ops as [|op ops IH]; intros m m' k H; cbn; [apply H|]. apply IH. intro k'.
    unfold spec_add, update. destruct (key_eq_dec k' (op_key op)); [now rewrite H|apply H]. }
  assert (LOC : forall ops m m' k, m k = m' k -> fold_left spec_add ops m k = fold_left spec_add ops m' k).
  { induction ops as [|op ops IH]; intros m m' k H; cbn; [apply H|]. apply IH.
    unfold spec_add, update. destruct (key_eq_dec k (op_key op)); [subst; now rewrite H|apply H]. }
  induction l as [|a l IH]; intros d oks d' k A L; cbn [attempts] in A.
  - injection A as <- <-. reflexivity.
  - destruct (add_call (at_grants a) (at_room a) (at_told a) d (at_op a)) as [[f d1] lg] eqn:C.
    destruct f as [[]| |]; [| |discriminate].
    + destruct (attempts l d1) as [[oks1 d2]|] eqn:R; [|discriminate]. injection A as <- <-.
      rewrite (IH _ _ _ k R).
      * cbn [map fold_left]. apply LOC. apply add_call_cases in C. destruct C as (said & _ & D & _).
        cbn [ms_dict] in D. rewrite D. apply lookup_add.
      * intros b ok I. apply L. now right.
    + destruct (attempts l d1) as [[oks1 d2]|] eqn:R; [|discriminate]. injection A as <- <-.
      rewrite (IH _ _ _ k R).
      * cbn [map fold_left]. apply LOC. apply add_call_cases in C. destruct C as (said & _ & (_ & D & _) & _).
        cbn [ms_dict] in D. unfold spec_add, update. destruct (key_eq_dec k (op_key (at_op a))) as [->|N].
        -- specialize (L a false (or_introl eq_refl) eq_refl). discriminate.
        -- now apply D.
      * intros b ok I. apply L. now right.
Qed.

(** exact runs *)
Lemma insert_pieces_exact : forall grants ps t s,
  (forall k, ms_asked s <= k < ms_asked s + length ps -> grants k = true) ->
  insert_pieces grants ps t s =
    (Fine (t ++ concat ps), {| ms_dict := ms_dict s; ms_asked := ms_asked s + length ps; ms_log := ms_log s |}).
Proof.
  induction ps as [|p ps IH]; intros t s G; cbn [insert_pieces].
  - cbn. rewrite app_nil_r, Nat.add_0_r. now destruct s.
  - unfold bind at 1, request at 1. cbv iota beta. rewrite G by (cbn; lia). rewrite IH.
    + cbn [concat length ms_dict ms_asked ms_log]. rewrite <- app_assoc.
      replace (ms_asked s + S (length ps)) with (S (ms_asked s) + length ps) by lia. reflexivity.
    + cbn [ms_asked]. intros k K. apply G. cbn [length]. lia.
Qed.
Lemma warn_exact : forall grants (told : bool) ps s,
  (forall k, ms_asked s <= k < ms_asked s + (if told then 2 + length ps else 0) -> grants k = true) ->
  exists log, warn grants told ps s =
    (Fine tt, {| ms_dict := ms_dict s; ms_asked := ms_asked s + (if told then 2 + length ps else 0); ms_log := log |}).
Proof.
  intros grants [|] ps s G; unfold warn.
  - unfold alloc, bind at 1, bind at 1, request at 1. rewrite G by lia. unfold ret. cbv iota beta.
    unfold bind at 1. rewrite insert_pieces_exact by (cbn [ms_asked]; intros; apply G; lia). cbv iota beta.
    unfold bind at 1, request at 1. cbv iota beta. cbn [ms_asked ms_dict ms_log]. rewrite G by lia.
    eexists. replace (ms_asked s + (2 + length ps)) with (S (S (ms_asked s) + length ps)) by lia. reflexivity.
  - exists (ms_log s). rewrite Nat.add_0_r. unfold ret. destruct s; reflexivity.
Qed.
Lemma assign_each_stops : forall grants c i d new old done n s,
  ms_dict s = put_vec c i (done ++ old) d -> n < length new -> n <= length old ->
  (forall k, ms_asked s <= k < ms_asked s + n -> grants k = true) -> grants (ms_asked s + n) = false ->
  exists s', assign_each grants c i done old new s = (BadAlloc, s') /\
    ms_dict s' = put_vec c i (done ++ firstn n new ++ skipn n old) d.
Proof.
  intros grants c i d. induction new as [|x new IH]; intros old done n s D N1 N2 G F; [cbn in N1; lia|].
  destruct old as [|y old]; cbn [assign_each].
  - assert (n = 0) by (cbn in N2; lia). subst n. rewrite Nat.add_0_r in F.
    unfold alloc, bind at 1, bind at 1, request. rewrite F. eexists. split; [reflexivity|]. exact D.
  - destruct n as [|n].
    + rewrite Nat.add_0_r in F.
      unfold alloc, bind at 1, bind at 1, request. rewrite F. eexists. split; [reflexivity|]. exact D.
    + unfold alloc, bind at 1, bind at 1, request. rewrite G by lia. unfold ret. cbv iota beta.
      unfold bind at 1. rewrite write_put. cbv iota beta. cbn [ms_dict ms_asked ms_log].
      edestruct (IH old (done ++ [x]) n) as (s' & R & E); cycle 5.
      { exists s'. split; [exact R|]. rewrite E. cbn [firstn skipn]. now rewrite <- app_assoc. }
      * cbn [ms_dict]. rewrite D, put_vec_twice. now rewrite <- app_assoc.
      * cbn in N1. lia.
      * cbn in N2. lia.
      * cbn [ms_asked]. intros k K. apply G. lia.
      * cbn [ms_asked]. rewrite <- F. f_equal. lia.
Qed.

Lemma mixture : forall d c i pl old new told n,
  lookup d (c, i) = Some old -> old <> [] -> old <> new -> n < length new -> n <= length old ->
  exists grants log d', add_call grants true told d (AddPlural c i pl new) = (BadAlloc, d', log) /\
    lookup d' (c, i) = Some (firstn n new ++ skipn n old).
Proof.
  intros d c i pl old new told n L N0 N1 N2 N3.
  set (s0 := {| ms_dict := d; ms_asked := 0; ms_log := [] |}).
  set (ps := [collision] ++ match c with Some c => [c; bs "', '"] | None => [] end
            ++ [i; bs "', '"; pl; bs "' -> ["] ++ print_pieces old ++ [bs "] vs ["]
            ++ print_pieces new ++ [bs "]"; [c_lf]]).
  set (w := if told then 2 + length ps else 0).
  set (g := fun k => negb (k =? w + n)).
  assert (V : vec_at g c i s0 = (Fine old, s0)).
  { unfold vec_at, bind, get_dict, ret. unfold lookup in L. cbn [fst snd] in L. destruct c as [c|]; cbn [ms_dict s0].
    - unfold ctxt_or_new. destruct (assoc c (d_ctxt d)) as [es|] eqn:E; [|discriminate].
      cbn [ms_dict s0]. rewrite E, L. reflexivity.
    - rewrite L. reflexivity. }
  assert (W : exists log, warn g told ps s0 = (Fine tt, {| ms_dict := d; ms_asked := 0 + w; ms_log := log |})).
  { apply (warn_exact g told ps s0). cbn [ms_asked s0]. intros k K. unfold g. fold w in K.
    destruct (Nat.eqb_spec k (w + n)); [lia|reflexivity]. }
  destruct W as [log W].
  edestruct (assign_each_stops g c i d new old [] n {| ms_dict := d; ms_asked := 0 + w; ms_log := log |}) as (s' & R & E).
  - cbn [ms_dict app]. now rewrite (put_vec_same _ _ _ _ L).
  - exact N2.
  - exact N3.
  - cbn [ms_asked]. intros k K. unfold g. destruct (Nat.eqb_spec k (w + n)); [lia|reflexivity].
  - cbn [ms_asked]. unfold g. cbn [Nat.add]. now rewrite Nat.eqb_refl.
  - exists g, (ms_log s'), (ms_dict s'). split.
    + unfold add_call. fold s0. cbn [add_mem]. unfold add_plural_mem, bind at 1. rewrite V. cbv iota beta.
      assert (Q : strs_eqb old new = false).
      { destruct (strs_eqb old new) eqn:Q; [apply strs_eqb_eq in Q; contradiction|reflexivity]. }
      destruct old as [|o0 old']; [contradiction|]. cbn [is_nil]. rewrite Q. cbn [negb].
      unfold bind at 1. fold ps. rewrite W. cbv iota beta. unfold vector_assign. rewrite R. reflexivity.
    + rewrite E. cbn [app]. apply lookup_put_same.
Qed.

Lemma left_empty : forall d op room told, lookup d (op_key op) = None -> op <> AddPlural (fst (op_key op)) (snd (op_key op))
    (match op with AddPlural _ _ pl _ => pl | _ => [] end) [] ->
  exists grants d', add_call grants room told d op = (BadAlloc, d', []) /\ lookup d' (op_key op) = Some [].
Proof.
  intros d op room told L NE.
  set (s0 := {| ms_dict := d; ms_asked := 0; ms_log := [] |}).
  assert (V : exists n, forall g, (forall k, k < n -> g k = true) ->
    vec_at g (fst (op_key op)) (snd (op_key op)) s0 =
      (Fine [], {| ms_dict := put_vec (fst (op_key op)) (snd (op_key op)) [] d; ms_asked := n; ms_log := [] |})).
  { subst s0. destruct (op_key op) as [[c|] i]; cbn [fst snd]; unfold lookup in L; cbn [fst snd] in L.
    - destruct (assoc c (d_ctxt d)) as [es|] eqn:E.
      + exists 1. intros g G. unfold vec_at, bind, get_dict, ret, alloc, bind, request, put_dict. cbn [ms_dict ms_asked ms_log].
        rewrite E. cbn [ms_dict ms_asked ms_log]. unfold ctxt_or_new. rewrite E, L, G by (cbn; lia). cbn.
        unfold ctxt_or_new. now rewrite E.
      + exists 2. intros g G. unfold vec_at, bind, get_dict, ret, alloc, bind, request, put_dict. cbn [ms_dict ms_asked ms_log].
        rewrite E, G by (cbn; lia). unfold ret. cbv beta iota. cbn [ms_dict ms_asked ms_log set_ctxt d_ctxt].
        assert (X : ctxt_or_new (assoc_set c [] (d_ctxt d)) c = []) by (unfold ctxt_or_new, entries; now rewrite assoc_set_same).
        rewrite X. cbn [assoc]. rewrite G by (cbn; lia). cbn. unfold ctxt_or_new, set_ctxt. cbn. rewrite E. cbn.
        rewrite assoc_set_twice. reflexivity.
    - exists 1. intros g G. unfold vec_at, bind, get_dict, ret, alloc, bind, request, put_dict. cbn [ms_dict ms_asked ms_log].
      rewrite L, G by (cbn; lia). reflexivity. }
  destruct V as [n V]. exists (fun k => k <? n), (put_vec (fst (op_key op)) (snd (op_key op)) [] d).
  assert (V' := V (fun k => k <? n) (fun k K => proj2 (Nat.ltb_lt k n) K)). clear V.
  assert (F : (n <? n) = false) by apply Nat.ltb_irrefl.
  unfold add_call. fold s0. destruct op as [c i s|c i pl new]; cbn [op_key fst snd add_mem] in *.
  - unfold add_singular_mem, bind at 1. rewrite V'. cbv iota beta.
    unfold alloc, bind at 1, bind at 1, request. cbn [ms_asked]. rewrite F. cbv iota beta. cbn [ms_dict ms_log].
    split; [reflexivity|]. apply lookup_put_same.
  - unfold add_plural_mem, bind at 1. rewrite V'. cbv iota beta. cbn [is_nil]. unfold vector_assign.
    destruct new as [|x new]; [now destruct NE|].
    destruct room; cbn [assign_each]; unfold alloc, bind at 1, bind at 1, request; cbn [ms_asked]; rewrite F; cbv iota beta; cbn [ms_dict ms_log].
    + split; [reflexivity|]. apply lookup_put_same.
    + split; [reflexivity|]. apply lookup_put_same.
Qed.

Lemma vec_at_known : forall g c i old d,
  lookup d (c, i) = Some old ->
  vec_at g c i {| ms_dict := d; ms_asked := 0; ms_log := [] |} =
    (Fine old, {| ms_dict := d; ms_asked := 0; ms_log := [] |}).
Proof.
  intros g c i old d L. unfold vec_at, bind, get_dict, ret. unfold lookup in L. cbn [fst snd] in L.
  destruct c as [c|]; cbn [ms_dict].
  - destruct (assoc c (d_ctxt d)) as [es|] eqn:E; [|discriminate].
    cbn [ms_dict]. unfold ctxt_or_new. rewrite E, L. reflexivity.
  - rewrite L. reflexivity.
Qed.
Lemma warn_terminates : forall ps d,
  warn (fun k => negb (k =? 1 + length ps)) true ps {| ms_dict := d; ms_asked := 0; ms_log := [] |} =
    (Terminate, {| ms_dict := d; ms_asked := 2 + length ps; ms_log := [] |}).
Proof.
  intros ps d. unfold warn, alloc, bind at 1, bind at 1, request at 1. cbn [ms_asked ms_dict ms_log].
  change (negb (0 =? 1 + length ps)) with true. unfold ret. cbv iota beta. unfold bind at 1.
  rewrite insert_pieces_exact.
  - cbv iota beta. unfold bind, request. cbn [ms_asked ms_dict ms_log]. rewrite Nat.eqb_refl. reflexivity.
  - cbn [ms_asked]. intros k K. destruct (Nat.eqb_spec k (1 + length ps)); [lia|reflexivity].
Qed.
Lemma terminates : forall d op old room,
  overwrites op (lookup d (op_key op)) old ->
  exists grants d', add_call grants room true d op = (Terminate, d', []).
Proof.
  intros d op old room (E & N & O). destruct op as [c i s|c i pl new]; cbn [op_key] in *.
  - destruct old as [|v0 vs]; [contradiction|]. eexists. exists d. unfold add_call. cbn [add_mem].
    unfold add_singular_mem, bind at 1. rewrite (vec_at_known _ _ _ _ _ E). cbv iota beta.
    assert (Q : bytes_eqb v0 s = false).
    { destruct (bytes_eqb v0 s) eqn:Q; [|reflexivity]. apply bytes_eqb_eq in Q. subst. destruct O. now rewrite E. }
    rewrite Q. cbn [negb]. unfold bind at 1. rewrite warn_terminates. reflexivity.
  - eexists. exists d. unfold add_call. cbn [add_mem].
    unfold add_plural_mem, bind at 1. rewrite (vec_at_known _ _ _ _ _ E). cbv iota beta.
    assert (Q : strs_eqb old new = false).
    { destruct (strs_eqb old new) eqn:Q; [|reflexivity]. apply strs_eqb_eq in Q. subst. now destruct O. }
    destruct old as [|o0 old]; [contradiction|]. cbn [is_nil].
    rewrite Q. cbn [negb]. unfold bind at 1. rewrite warn_terminates. reflexivity.
Qed.
