(** Tables that have been filled, or filled in part. *)
From Verif.Model Require Import Base PluralForms LanguageTable Language Tables.
From Verif.Spec Require Import LangSpec TablesSpec.
From Verif.Proofs Require Import BaseFacts PluralProofs LangProofs MemoryProofs.
Local Open Scope list_scope.

Section Fill.
  Context {R V : Type}.
  Variable key : R -> bytes.
  Variable fresh : V.
  Variable write : V -> R -> V.
  Variable asks : bool.
  Notation fill := (fill key fresh write asks).
  Notation tab := (list (bytes * V)).
  Implicit Types (t : tab) (rows : list R).

  Definition or_fresh (o : option V) : V := match o with Some v => v | None => fresh end.
  Definition ins (t : tab) (r : R) : tab := assoc_set (key r) (write (or_fresh (assoc (key r) t)) r) t.
  Definition full rows t : tab := fold_left ins rows t.

  Lemma fill_cases : forall rows g n t, 
    (fill g n rows t = (true, full rows t)) \/
    (exists k r, nth_error rows k = Some r /\
       (fill g n rows t = (false, full (firstn k rows) t) \/
        (asks = true /\ assoc (key r) (full (firstn k rows) t) = None /\
         fill g n rows t = (false, assoc_set (key r) fresh (full (firstn k rows) t))))).
  Proof.
    induction rows as [|r rows IH]; intros g n t; [left; reflexivity|].
    assert (Go : forall v, v = or_fresh (assoc (key r) t) ->
      fill g (S (S n)) rows (assoc_set (key r) (write v r) (assoc_set (key r) v t)) = fill g (S (S n)) rows (ins t r)).
    { intros v ->. now rewrite assoc_set_twice. }
    assert (Rec : forall X, X = fill g (S (S n)) rows (ins t r) ->
      X = (true, full (r :: rows) t) \/
      (exists k r0, nth_error (r :: rows) k = Some r0 /\
       (X = (false, full (firstn k (r :: rows)) t) \/
        (asks = true /\ assoc (key r0) (full (firstn k (r :: rows)) t) = None /\
         X = (false, assoc_set (key r0) fresh (full (firstn k (r :: rows)) t)))))).
    { intros X ->. destruct (IH g (S (S n)) (ins t r)) as [H|(k & r0 & N & H)]; [left; exact H|].
      right. exists (S k), r0. split; [exact N|]. exact H. }
    cbn [Tables.fill]. destruct (assoc (key r) t) as [v|] eqn:A.
    - destruct (asks && negb (g (S n))) eqn:B.
      + right. exists 0, r. split; [reflexivity|]. left. rewrite (assoc_set_id _ _ _ A). reflexivity.
      + apply Rec. apply Go; reflexivity.
    - destruct (g n).
      + destruct (asks && negb (g (S n))) eqn:B.
        * right. exists 0, r. split; [reflexivity|]. right. apply andb_prop in B as [B _]. auto.
        * apply Rec. apply Go; reflexivity.
      + right. exists 0, r. split; [reflexivity|]. left. reflexivity.
  Qed.

  Lemma fill_plenty g n rows t : (forall i, g i = true) -> fill g n rows t = (true, full rows t).
  Proof.
    intro G. revert n t. induction rows as [|r rows IH]; intros n t; [reflexivity|].
    cbn [Tables.fill]. rewrite !G. cbn [negb]. rewrite andb_false_r.
    change (full (r :: rows) t) with (full rows (ins t r)). unfold ins.
    destruct (assoc (key r) t) as [v|] eqn:A; rewrite IH, assoc_set_twice; reflexivity.
  Qed.

  (** what is found *)
  Definition gather (x : bytes) (o : option V) (r : R) : option V :=
    if bytes_eqb x (key r) then Some (write (or_fresh o) r) else o.
  Lemma full_assoc x rows : forall t, assoc x (full rows t) = fold_left (gather x) rows (assoc x t).
  Proof.
    induction rows as [|r rows IH]; intro t; [reflexivity|]. unfold full in *. cbn [fold_left]. rewrite IH. f_equal.
    unfold ins, gather. destruct (bytes_eqb_spec x (key r)) as [->|N]; [now rewrite assoc_set_same|now apply assoc_set_other].
  Qed.
  Lemma full_nil k rows : full (firstn k rows) [] = [] -> k = 0 \/ rows = [].
  Proof.
    destruct k, rows as [|r rows]; auto. cbn [firstn]. intro H. exfalso.
    pose proof (full_assoc (key r) (r :: firstn k rows) []) as A. rewrite H in A. cbn [fold_left assoc] in A.
    unfold gather at 2 in A. rewrite bytes_eqb_refl in A. revert A. generalize (write (or_fresh None) r).
    generalize (firstn k rows). induction l as [|r' l IH]; intro v; cbn [fold_left]; [discriminate|].
    unfold gather at 2. destruct (bytes_eqb (key r) (key r')); apply IH.
  Qed.

  (** every interruption is possible *)
  Lemma fill_cut k : forall rows n t r, nth_error rows k = Some r ->
    asks = true \/ assoc (key r) (full (firstn k rows) t) = None ->
    fill (fun i => i <? n + 2 * k) n rows t = (false, full (firstn k rows) t).
  Proof.
    induction k as [|k IH]; intros rows n t r N H; (destruct rows as [|r0 rows]; [discriminate|]).
    - cbn [nth_error] in N. injection N as ->. cbn [Tables.fill firstn].
      replace (n <? n + 2 * 0) with false by (symmetry; apply Nat.ltb_ge; lia).
      replace (S n <? n + 2 * 0) with false by (symmetry; apply Nat.ltb_ge; lia).
      cbn [firstn full fold_left] in H. destruct (assoc (key r) t) as [v|] eqn:A; [|reflexivity].
      destruct H as [->|H]; [|discriminate H]. cbn [negb andb]. rewrite (assoc_set_id _ _ _ A). reflexivity.
    - cbn [nth_error] in N. cbn [Tables.fill firstn].
      replace (n <? n + 2 * S k) with true by (symmetry; apply Nat.ltb_lt; lia).
      replace (S n <? n + 2 * S k) with true by (symmetry; apply Nat.ltb_lt; lia).
      cbn [negb]. rewrite andb_false_r.
      assert (X : fill (fun i => i <? n + 2 * S k) (S (S n)) rows (ins t r0) = (false, full (firstn k rows) (ins t r0))).
      { replace (n + 2 * S k) with (S (S n) + 2 * k) by lia. exact (IH rows _ _ r N H). }
      change (full (r0 :: firstn k rows) t) with (full (firstn k rows) (ins t r0)). unfold ins in X |- *.
      destruct (assoc (key r0) t) as [v|] eqn:A; rewrite assoc_set_twice; exact X.
  Qed.
  Lemma fill_blank k : forall rows n t r, nth_error rows k = Some r ->
    asks = true -> assoc (key r) (full (firstn k rows) t) = None ->
    fill (fun i => i <? n + S (2 * k)) n rows t = (false, assoc_set (key r) fresh (full (firstn k rows) t)).
  Proof.
    induction k as [|k IH]; intros rows n t r N As H; (destruct rows as [|r0 rows]; [discriminate|]).
    - cbn [nth_error] in N. injection N as ->. cbn [Tables.fill firstn].
      replace (n <? n + S (2 * 0)) with true by (symmetry; apply Nat.ltb_lt; lia).
      replace (S n <? n + S (2 * 0)) with false by (symmetry; apply Nat.ltb_ge; lia).
      cbn [firstn full fold_left] in H. rewrite H, As. reflexivity.
    - cbn [nth_error] in N. cbn [Tables.fill firstn].
      replace (n <? n + S (2 * S k)) with true by (symmetry; apply Nat.ltb_lt; lia).
      replace (S n <? n + S (2 * S k)) with true by (symmetry; apply Nat.ltb_lt; lia).
      cbn [negb]. rewrite andb_false_r.
      assert (X : fill (fun i => i <? n + S (2 * S k)) (S (S n)) rows (ins t r0) =
                  (false, assoc_set (key r) fresh (full (firstn k rows) (ins t r0)))).
      { replace (n + S (2 * S k)) with (S (S n) + S (2 * k)) by lia. exact (IH rows _ _ r N As H). }
      change (full (r0 :: firstn k rows) t) with (full (firstn k rows) (ins t r0)). unfold ins in X |- *.
      destruct (assoc (key r0) t) as [v|] eqn:A; rewrite assoc_set_twice; exact X.
  Qed.
End Fill.

(** ** tables of key and value *)
Section Pairs.
  Context {V : Type}.
  Variable fresh : V.
  Variable asks : bool.
  Notation pfull := (full fst fresh (fun (_ : V) (r : bytes * V) => snd r)).
  Lemma pair_gather rows x : NoDup (List.map fst rows) -> forall o, 
    fold_left (gather fst fresh (fun (_ : V) (r : bytes * V) => snd r) x) rows o =
    match assoc x rows with Some v => Some v | None => o end.
  Proof.
    induction rows as [|[k v] rows IH]; cbn [fold_left assoc List.map fst]; intros ND o; [reflexivity|].
    inversion ND as [|? ? N1 N2]; subst. rewrite IH by exact N2. unfold gather. cbn [fst snd].
    destruct (bytes_eqb_spec x k) as [->|N]; [|reflexivity].
    apply assoc_None in N1. now rewrite N1.
  Qed.
  Lemma pfull_assoc rows x : NoDup (List.map fst rows) -> assoc x (pfull rows []) = assoc x rows.
  Proof. intro ND. rewrite full_assoc, pair_gather by exact ND. cbn [assoc]. now destruct (assoc x rows). Qed.
End Pairs.

Lemma NoDup_firstn A (l : list A) k : NoDup l -> NoDup (firstn k l).
Proof.
  intro N. revert k. induction N as [|x l H N IH]; intros [|k]; cbn [firstn]; constructor; auto.
  intro I. apply H. rewrite <- (firstn_skipn k l). apply in_or_app. now left.
Qed.
Lemma firstn_map A B (f : A -> B) k l : List.map f (firstn k l) = firstn k (List.map f l).
Proof. revert l. induction k as [|k IH]; intros [|x l]; cbn [firstn List.map]; [reflexivity..|]. now rewrite IH. Qed.

(** ** the language table *)
Local Opaque languages.
Notation lfull := (full ls_language [] (fun v s => v ++ [s])).
Definition of_rows (rows : list language_spec) (la : bytes) : option (list language_spec) :=
  match List.filter (fun s => bytes_eqb (ls_language s) la) rows with [] => None | l => Some l end.
Lemma lang_gather la rows : forall o,
  fold_left (gather ls_language [] (fun v s => v ++ [s]) la) rows o =
  match List.filter (fun s => bytes_eqb (ls_language s) la) rows with
  | [] => o
  | l => Some (match o with Some v => v | None => [] end ++ l)
  end.
Proof.
  induction rows as [|s rows IH]; intro o; cbn [fold_left List.filter]; [reflexivity|]. rewrite IH. unfold gather.
  rewrite (bytes_eqb_sym la). destruct (bytes_eqb (ls_language s) la); [|reflexivity].
  destruct (List.filter _ rows); unfold or_fresh; [reflexivity|]. now rewrite <- app_assoc.
Qed.
Lemma lfull_assoc la rows : assoc la (lfull rows []) = of_rows rows la.
Proof.
  rewrite full_assoc, lang_gather. unfold of_rows. cbn [assoc]. destruct (List.filter _ rows); reflexivity.
Qed.
Lemma select_rows nd t rows la co mo : assoc la t = of_rows rows la ->
  select_spec nd t la co mo = from_rows rows nd la co mo.
Proof.
  intro H. unfold select_spec, from_rows. rewrite H. unfold of_rows. destruct (List.filter _ rows); reflexivity.
Qed.
Lemma rows_all nd la co mo : from_rows languages nd la co mo = from_spec nd la co mo.
Proof. reflexivity. Qed.
Lemma select_blank nd t la co mo : assoc la t = Some [] -> select_spec nd t la co mo = if nd then Ret None else AssertFail.
Proof. intro H. unfold select_spec. now rewrite H. Qed.

(** ** states of the three tables *)
Definition langs_state (m : lang_map) (n : nat) (blank : option bytes) : Prop :=
  m <> [] /\ n <= length languages /\
  (forall la, assoc la m = if match blank with Some b => bytes_eqb la b | None => false end then Some []
                           else of_rows (firstn n languages) la).
Definition pairs_state {V} (rows : list (bytes * V)) (fresh : V) (m : list (bytes * V)) (n : nat) (blank : option bytes) : Prop :=
  m <> [] /\ n <= length rows /\ (forall x, assoc x m = looked_up rows n blank fresh x).

Lemma assoc_set_nonnil V (m : list (bytes * V)) k v : assoc_set k v m <> [].
Proof. destruct m as [|[k' v'] m]; cbn [assoc_set]; [discriminate|]. destruct (bytes_eqb k k'); discriminate. Qed.
Lemma nth_lt A (l : list A) k r : nth_error l k = Some r -> k < length l.
Proof. intro H. apply nth_error_Some. congruence. Qed.

Lemma fill_langs_ok g t ok m : fill_langs g t = (ok, m) ->
  (t <> [] -> ok = true /\ m = t) /\
  (t = [] -> (ok = true -> langs_state m (length languages) None) /\
             (ok = false -> m = [] \/ exists n blank, langs_state m n blank)).
Proof.
  unfold fill_langs, fill_if_empty. intro E. split.
  - intro N. destruct t; [congruence|]. cbn [is_nil] in E. injection E as <- <-. auto.
  - intros ->. cbn [is_nil] in E.
    assert (NL : languages <> []) by (intro H; pose proof (f_equal (@length _) H) as X; vm_compute in X; discriminate).
    destruct (fill_cases ls_language [] (fun v s => v ++ [s]) true languages g 0 []) as [H|(k & r & N & [H|(_ & A & H)])];
      rewrite H in E; injection E as <- <-.
    + split; [|discriminate]. intros _. split; [|split; [auto|]].
      * rewrite <- (firstn_all languages). intro X. apply full_nil in X as [X|X]; [|contradiction].
        destruct languages; [contradiction|discriminate].
      * intro la. rewrite firstn_all. apply lfull_assoc.
    + split; [discriminate|]. intros _. destruct k as [|k]; [left; reflexivity|]. right. exists (S k), None.
      split; [intro X; apply full_nil in X as [X|X]; [discriminate|contradiction]|].
      apply nth_lt in N. split; [lia|]. intro la. apply lfull_assoc.
    + split; [discriminate|]. intros _. right. exists k, (Some (ls_language r)).
      split; [apply assoc_set_nonnil|]. apply nth_lt in N. split; [lia|]. intro la.
      destruct (bytes_eqb_spec la (ls_language r)) as [->|Nl]; [apply assoc_set_same|].
      rewrite assoc_set_other by exact Nl. apply lfull_assoc.
Qed.

Lemma fill_pairs_ok V (rows : list (bytes * V)) fresh asks g t ok m : rows <> [] -> NoDup (List.map fst rows) ->
  fill_if_empty fst fresh (fun _ r => snd r) asks g rows t = (ok, m) ->
  (t <> [] -> ok = true /\ m = t) /\
  (t = [] -> (ok = true -> pairs_state rows fresh m (length rows) None) /\
             (ok = false -> m = [] \/ exists n blank, (blank = None \/ asks = true) /\ pairs_state rows fresh m n blank)).
Proof.
  intros NR ND. unfold fill_if_empty. intro E. split.
  - intro N. destruct t; [congruence|]. cbn [is_nil] in E. injection E as <- <-. auto.
  - intros ->. cbn [is_nil] in E.
    assert (NDk : forall k, NoDup (List.map fst (firstn k rows))) by (intro k; rewrite firstn_map; now apply NoDup_firstn).
    destruct (fill_cases fst fresh (fun (_ : V) (r : bytes * V) => snd r) asks rows g 0 []) as [H|(k & r & N & [H|(As & A & H)])];
      rewrite H in E; injection E as <- <-.
    + split; [|discriminate]. intros _. split; [|split; [auto|]].
      * rewrite <- (firstn_all rows). intro X. apply full_nil in X as [X|X]; [|contradiction].
        destruct rows; [contradiction|discriminate].
      * intro x. unfold looked_up. rewrite firstn_all. now apply pfull_assoc.
    + split; [discriminate|]. intros _. destruct k as [|k]; [left; reflexivity|]. right. exists (S k), None. split; [now left|].
      split; [intro X; apply full_nil in X as [X|X]; [discriminate|contradiction]|].
      apply nth_lt in N. split; [lia|]. intro x. unfold looked_up. apply pfull_assoc, NDk.
    + split; [discriminate|]. intros _. right. exists k, (Some (fst r)). split; [now right|].
      split; [apply assoc_set_nonnil|]. apply nth_lt in N. split; [lia|]. intro x. unfold looked_up.
      destruct (bytes_eqb_spec x (fst r)) as [->|Nl]; [apply assoc_set_same|].
      rewrite assoc_set_other by exact Nl. apply pfull_assoc, NDk.
Qed.

(** ** what a call leaves *)
Section Calls.
  Variable strict nd : bool.
  Notation step := (tcall_step strict nd).
  Notation after := (tables_after strict nd).

  Lemma split_env_ok e : from_env nd e = obind (split_env e) (fun x => from_spec nd (fst (fst x)) (snd (fst x)) (snd x)).
  Proof.
    unfold from_env, split_env. cbv zeta.
    do 4 (match goal with |- match ?x with Some _ => _ | None => _ end = _ => destruct x; [|reflexivity] end).
    reflexivity.
  Qed.

  Lemma spec_keeps k la co mo t : tb_langs t <> [] ->
    from_spec_mem nd k la co mo t = (select_spec nd (tb_langs t) la co mo, t).
  Proof.
    intro N. unfold from_spec_mem. destruct (fill_langs (lk_langs k) (tb_langs t)) as [ok m] eqn:E.
    destruct (proj1 (fill_langs_ok _ _ _ _ E) N) as [-> ->]. now destruct t.
  Qed.

  (** the parts of the tables a call may change, and how *)
  Definition tables_ok (t t' : tables) : Prop :=
    (tb_langs t <> [] -> tb_langs t' = tb_langs t) /\
    (tb_aliases t <> [] -> tb_aliases t' = tb_aliases t) /\
    (tb_plurals t <> [] -> tb_plurals t' = tb_plurals t).
  Lemma tables_ok_refl t : tables_ok t t. Proof. unfold tables_ok. auto. Qed.
  Lemma tables_ok_trans a b c : tables_ok a b -> tables_ok b c -> tables_ok a c.
  Proof.
    intros (A1 & A2 & A3) (B1 & B2 & B3). split; [|split].
    - intro H. rewrite <- (A1 H). apply B1. now rewrite A1.
    - intro H. rewrite <- (A2 H). apply B2. now rewrite A2.
    - intro H. rewrite <- (A3 H). apply B3. now rewrite A3.
  Qed.

  Definition part {T A} (fill : (nat -> bool) -> T -> bool * T) (o : outcome A) (m m' : T) : Prop :=
    m' = m \/ exists g ok, fill g m = (ok, m') /\ (ok = false -> o = Exn bad_alloc).
  Definition parts {A} (o : outcome A) (t t' : tables) : Prop :=
    part fill_langs o (tb_langs t) (tb_langs t') /\ part fill_aliases o (tb_aliases t) (tb_aliases t') /\
    part fill_plurals o (tb_plurals t) (tb_plurals t').
  Lemma part_omap {T A B} (f : A -> B) fill (o : outcome A) (m m' : T) : part fill o m m' -> part fill (omap f o) m m'.
  Proof. intros [H|(g & ok & H & E)]; [now left|right; exists g, ok]. split; [exact H|]. intro X. now rewrite (E X). Qed.
  Lemma parts_omap {A B} (f : A -> B) (o : outcome A) t t' : parts o t t' -> parts (omap f o) t t'.
  Proof. intros (A1 & A2 & A3). split; [|split]; now apply part_omap. Qed.
  Lemma parts_same {A} (o : outcome A) t : parts o t t.
  Proof. split; [|split]; now left. Qed.

  Lemma spec_parts k la co mo t : parts (fst (from_spec_mem nd k la co mo t)) t (snd (from_spec_mem nd k la co mo t)).
  Proof.
    unfold from_spec_mem. destruct (fill_langs (lk_langs k) (tb_langs t)) as [ok m] eqn:E.
    destruct ok; cbn [fst snd]; (split; [right; exists (lk_langs k); eexists; split; [exact E|cbn; auto; discriminate]|split; now left]).
  Qed.
  Lemma env_parts k e t : parts (fst (from_env_mem nd k e t)) t (snd (from_env_mem nd k e t)).
  Proof.
    unfold from_env_mem. destruct (lk_after k); [|apply parts_same].
    destruct (split_env e) as [[[la co] mo]|?|?| |]; try apply parts_same. apply spec_parts.
  Qed.
  Lemma name_parts k n t : parts (fst (from_name_mem strict nd k n t)) t (snd (from_name_mem strict nd k n t)).
  Proof.
    unfold from_name_mem. destruct (fill_aliases (lk_aliases k) (tb_aliases t)) as [ok m] eqn:E. cbv zeta.
    set (t' := {| tb_langs := tb_langs t; tb_aliases := m; tb_plurals := tb_plurals t |}).
    assert (X : forall A (o : outcome A) t2, parts o t' t2 -> (ok = false -> o = Exn bad_alloc) ->
                tb_aliases t2 = m -> parts o t t2).
    { intros A o t2 (P1 & _ & P3) H M. split; [exact P1|]. split; [|exact P3]. right. exists (lk_aliases k), ok. rewrite M. auto. }
    destruct ok; cbn [andb].
    - destruct (lk_before k); [|apply X; [apply parts_same|discriminate|reflexivity]].
      destruct (strict && existsb hi n); [apply X; [apply parts_same|discriminate|reflexivity]|].
      match goal with |- context[from_env_mem nd k ?e t'] => set (e0 := e) end.
      apply X; [apply env_parts|discriminate|]. unfold from_env_mem. destruct (lk_after k); [|reflexivity].
      destruct (split_env e0) as [[[la co] mo]|?|?| |]; try reflexivity. unfold from_spec_mem.
      destruct (fill_langs _ _) as [[|] ?]; reflexivity.
    - apply X; [apply parts_same|reflexivity|reflexivity].
  Qed.
  Lemma string_parts k x t : parts (fst (from_string_mem strict k x t)) t (snd (from_string_mem strict k x t)).
  Proof.
    unfold from_string_mem. destruct (fill_plurals (lk_plurals k) (tb_plurals t)) as [ok m] eqn:E. cbv zeta.
    split; [|split]; [left|left|right; exists (lk_plurals k), ok]; destruct ok; cbn [andb]; destruct (lk_after k); cbn [fst snd tb_langs tb_aliases tb_plurals];
      try destruct (strict && existsb hi x); try reflexivity; (split; [exact E|intros; congruence]).
  Qed.
  Lemma step_parts k c t : parts (fst (step k c t)) t (snd (step k c t)).
  Proof.
    destruct c as [la co mo|e|n|x]; unfold tcall_step.
    - pose proof (spec_parts k la co mo t) as H. destruct (from_spec_mem nd k la co mo t). now apply parts_omap.
    - pose proof (env_parts k e t) as H. destruct (from_env_mem nd k e t). now apply parts_omap.
    - pose proof (name_parts k n t) as H. destruct (from_name_mem strict nd k n t). now apply parts_omap.
    - pose proof (string_parts k x t) as H. destruct (from_string_mem strict k x t). now apply parts_omap.
  Qed.

  Lemma rows_l : languages <> [].
  Proof. intro H; pose proof (f_equal (@length _) H) as X; vm_compute in X; discriminate. Qed.
  Lemma rows_a : aliases <> []. Proof. discriminate. Qed.
  Lemma rows_p : plural_table <> []. Proof. discriminate. Qed.

  (** what may be there *)
  Definition inv_langs (m : lang_map) : Prop := m = [] \/ exists n blank, langs_state m n blank.
  Definition inv_aliases (m : alias_map) : Prop := m = [] \/ exists n blank, pairs_state aliases [] m n blank.
  Definition inv_plurals (m : plural_map) : Prop := m = [] \/ exists n, pairs_state plural_table pf_none m n None.
  Definition tables_inv (t : tables) : Prop := inv_langs (tb_langs t) /\ inv_aliases (tb_aliases t) /\ inv_plurals (tb_plurals t).
  Definition whole (t : tables) : Prop :=
    (tb_langs t = [] \/ langs_state (tb_langs t) (length languages) None) /\
    (tb_aliases t = [] \/ pairs_state aliases [] (tb_aliases t) (length aliases) None) /\
    (tb_plurals t = [] \/ pairs_state plural_table pf_none (tb_plurals t) (length plural_table) None).

  Lemma nil_dec A (l : list A) : l = [] \/ l <> []. Proof. destruct l; [now left|right; discriminate]. Qed.
  Lemma step_keeps k c t : tables_ok t (snd (step k c t)).
  Proof.
    destruct (step_parts k c t) as (P1 & P2 & P3). split; [|split]; intro N.
    - destruct P1 as [H|(g & ok & H & _)]; [exact H|]. now apply (proj1 (fill_langs_ok _ _ _ _ H)).
    - destruct P2 as [H|(g & ok & H & _)]; [exact H|]. now apply (proj1 (fill_pairs_ok _ _ _ _ _ _ _ _ rows_a aliases_nodup H)).
    - destruct P3 as [H|(g & ok & H & _)]; [exact H|]. now apply (proj1 (fill_pairs_ok _ _ _ _ _ _ _ _ rows_p plural_table_nodup H)).
  Qed.
  Lemma after_keeps calls t : tables_ok t (after calls t).
  Proof.
    revert t. induction calls as [|[k c] calls IH]; intro t; [apply tables_ok_refl|]. unfold tables_after in *. cbn [fold_left fst snd].
    eapply tables_ok_trans; [apply step_keeps|apply IH].
  Qed.
  Lemma step_inv k c t : tables_inv t -> tables_inv (snd (step k c t)).
  Proof.
    intros (I1 & I2 & I3). destruct (step_parts k c t) as (P1 & P2 & P3). split; [|split].
    - destruct P1 as [->|(g & ok & H & _)]; [exact I1|]. destruct (fill_langs_ok _ _ _ _ H) as [F1 F2].
      destruct (nil_dec _ (tb_langs t)) as [N|N]; [|destruct (F1 N) as [_ ->]; exact I1].
      destruct (F2 N) as [G1 G2]. destruct ok; [right; eauto|exact (G2 eq_refl)].
    - destruct P2 as [->|(g & ok & H & _)]; [exact I2|].
      destruct (fill_pairs_ok _ _ _ _ _ _ _ _ rows_a aliases_nodup H) as [F1 F2].
      destruct (nil_dec _ (tb_aliases t)) as [N|N]; [|destruct (F1 N) as [_ ->]; exact I2].
      destruct (F2 N) as [G1 G2]. destruct ok; [right; eauto|]. destruct (G2 eq_refl) as [X|(n & b & _ & X)]; [left; exact X|right; eauto].
    - destruct P3 as [->|(g & ok & H & _)]; [exact I3|].
      destruct (fill_pairs_ok _ _ _ _ _ _ _ _ rows_p plural_table_nodup H) as [F1 F2].
      destruct (nil_dec _ (tb_plurals t)) as [N|N]; [|destruct (F1 N) as [_ ->]; exact I3].
      destruct (F2 N) as [G1 G2]. destruct ok; [right; eauto|].
      destruct (G2 eq_refl) as [X|(n & b & [B|B] & X)]; [left; exact X|subst b; right; eauto|discriminate].
  Qed.
  Lemma after_inv calls t : tables_inv t -> tables_inv (after calls t).
  Proof.
    revert t. induction calls as [|[k c] calls IH]; intros t I; [exact I|]. unfold tables_after in *. cbn [fold_left fst snd].
    apply IH. now apply step_inv.
  Qed.
  Lemma start_inv : tables_inv no_tables. Proof. split; [|split]; now left. Qed.
  Lemma step_whole k c t : whole t -> fst (step k c t) <> Exn bad_alloc -> whole (snd (step k c t)).
  Proof.
    intros (I1 & I2 & I3) U. destruct (step_parts k c t) as (P1 & P2 & P3). split; [|split].
    - destruct P1 as [->|(g & ok & H & E)]; [exact I1|]. destruct (fill_langs_ok _ _ _ _ H) as [F1 F2].
      destruct (nil_dec _ (tb_langs t)) as [N|N]; [|destruct (F1 N) as [_ ->]; exact I1].
      destruct (F2 N) as [G1 _]. destruct ok; [right; auto|destruct (U (E eq_refl))].
    - destruct P2 as [->|(g & ok & H & E)]; [exact I2|].
      destruct (fill_pairs_ok _ _ _ _ _ _ _ _ rows_a aliases_nodup H) as [F1 F2].
      destruct (nil_dec _ (tb_aliases t)) as [N|N]; [|destruct (F1 N) as [_ ->]; exact I2].
      destruct (F2 N) as [G1 _]. destruct ok; [right; auto|destruct (U (E eq_refl))].
    - destruct P3 as [->|(g & ok & H & E)]; [exact I3|].
      destruct (fill_pairs_ok _ _ _ _ _ _ _ _ rows_p plural_table_nodup H) as [F1 F2].
      destruct (nil_dec _ (tb_plurals t)) as [N|N]; [|destruct (F1 N) as [_ ->]; exact I3].
      destruct (F2 N) as [G1 _]. destruct ok; [right; auto|destruct (U (E eq_refl))].
  Qed.
  Lemma after_whole calls t : whole t -> untroubled strict nd calls t -> whole (after calls t).
  Proof.
    revert t. induction calls as [|[k c] calls IH]; intros t I U; [exact I|]. unfold tables_after in *. cbn [fold_left fst snd].
    destruct U as [U1 U2]. apply IH; [now apply step_whole|exact U2].
  Qed.

  (** with whole tables the answers are right, if there is memory for the call *)
  Lemma whole_fill_langs g t m : (tb_langs t = [] \/ langs_state (tb_langs t) (length languages) None) ->
    fill_langs g (tb_langs t) = (true, m) -> langs_state m (length languages) None.
  Proof.
    intros [N|S] E; destruct (fill_langs_ok _ _ _ _ E) as [F1 F2]; [now apply (F2 N)|].
    destruct (F1 (proj1 S)) as [_ ->]. exact S.
  Qed.
  Lemma spec_right k la co mo t : (tb_langs t = [] \/ langs_state (tb_langs t) (length languages) None) ->
    fst (from_spec_mem nd k la co mo t) = Exn bad_alloc \/ fst (from_spec_mem nd k la co mo t) = from_spec nd la co mo.
  Proof.
    intro W. unfold from_spec_mem. destruct (fill_langs (lk_langs k) (tb_langs t)) as [ok m] eqn:E.
    destruct ok; cbn [fst]; [|now left]. right. pose proof (whole_fill_langs _ _ _ W E) as (_ & _ & A).
    rewrite <- rows_all. apply select_rows. rewrite A. now rewrite firstn_all.
  Qed.
  Lemma env_right k e t : (tb_langs t = [] \/ langs_state (tb_langs t) (length languages) None) ->
    fst (from_env_mem nd k e t) = Exn bad_alloc \/ fst (from_env_mem nd k e t) = from_env nd e.
  Proof.
    intro W. unfold from_env_mem. rewrite split_env_ok. destruct (lk_after k); [|now left].
    destruct (split_env e) as [[[la co] mo]|?|?| |]; cbn [obind fst snd]; try now right. now apply spec_right.
  Qed.
  Lemma name_right k n t : whole t ->
    fst (from_name_mem strict nd k n t) = Exn bad_alloc \/ fst (from_name_mem strict nd k n t) = from_name strict nd n.
  Proof.
    intros (W1 & W2 & _). unfold from_name_mem. destruct (fill_aliases (lk_aliases k) (tb_aliases t)) as [ok m] eqn:E.
    cbv zeta. destruct (ok && lk_before k) eqn:B; [|now left]. apply andb_prop in B as [-> _].
    assert (A : forall x, assoc x m = assoc x aliases).
    { destruct (fill_pairs_ok _ _ _ _ _ _ _ _ rows_a aliases_nodup E) as [F1 F2].
      assert (P : pairs_state aliases [] m (length aliases) None).
      { destruct W2 as [N|S]; [now apply (F2 N)|]. destruct (F1 (proj1 S)) as [_ ->]. exact S. }
      intro x. destruct P as (_ & _ & P). rewrite P. unfold looked_up. now rewrite firstn_all. }
    unfold from_name, resolve_language_alias. destruct (strict && existsb hi n); [now right|]. rewrite A.
    destruct (assoc (List.map tolower n) aliases) as [r|]; cbn [obind].
    - now apply env_right.
    - now apply env_right.
  Qed.
  Lemma string_right k x t : whole t ->
    fst (from_string_mem strict k x t) = Exn bad_alloc \/ fst (from_string_mem strict k x t) = from_string strict x.
  Proof.
    intros (_ & _ & W3). unfold from_string_mem. destruct (fill_plurals (lk_plurals k) (tb_plurals t)) as [ok m] eqn:E.
    cbv zeta. destruct (ok && lk_after k) eqn:B; [|now left]. apply andb_prop in B as [-> _].
    assert (A : forall x, assoc x m = assoc x plural_table).
    { destruct (fill_pairs_ok _ _ _ _ _ _ _ _ rows_p plural_table_nodup E) as [F1 F2].
      assert (P : pairs_state plural_table pf_none m (length plural_table) None).
      { destruct W3 as [N|S]; [now apply (F2 N)|]. destruct (F1 (proj1 S)) as [_ ->]. exact S. }
      intro y. destruct P as (_ & _ & P). rewrite P. unfold looked_up. now rewrite firstn_all. }
    unfold from_string. destruct (strict && existsb hi x); [now right|]. cbn [fst]. rewrite A. now right.
  Qed.
  Lemma step_right k c t : whole t -> fst (step k c t) = Exn bad_alloc \/ fst (step k c t) = right_answer strict nd c.
  Proof.
    intro W. destruct c as [la co mo|e|n|x]; unfold tcall_step, right_answer.
    - pose proof (spec_right k la co mo t (proj1 W)) as H. destruct (from_spec_mem nd k la co mo t) as [o t']. cbn [fst] in *.
      destruct H as [->| ->]; [now left|now right].
    - pose proof (env_right k e t (proj1 W)) as H. destruct (from_env_mem nd k e t) as [o t']. cbn [fst] in *.
      destruct H as [->| ->]; [now left|now right].
    - pose proof (name_right k n t W) as H. destruct (from_name_mem strict nd k n t) as [o t']. cbn [fst] in *.
      destruct H as [->| ->]; [now left|now right].
    - pose proof (string_right k x t W) as H. destruct (from_string_mem strict k x t) as [o t']. cbn [fst] in *.
      destruct H as [->| ->]; [now left|now right].
  Qed.

  Lemma fill_if_plenty {R V} (key : R -> bytes) (fresh : V) write asks g rows t : (forall i, g i = true) ->
    exists m, fill_if_empty key fresh write asks g rows t = (true, m).
  Proof.
    intro G. unfold fill_if_empty. destruct (is_nil t); [|eauto]. rewrite fill_plenty by exact G. eauto.
  Qed.
  Lemma spec_plenty k la co mo t : plenty k -> fst (from_spec_mem nd k la co mo t) <> Exn bad_alloc.
  Proof.
    intros (_ & P & _). unfold from_spec_mem, fill_langs.
    match goal with |- context[fill_if_empty ?a ?b ?c ?d ?e ?f ?g] => destruct (fill_if_plenty a b c d e f g P) as [m ->] end.
    cbn [fst]. unfold select_spec. destruct (assoc la m) as [l|]; [|discriminate].
    destruct (fst (fold_left _ l _)); [discriminate|]. destruct nd; discriminate.
  Qed.
  Lemma env_plenty k e t : plenty k -> fst (from_env_mem nd k e t) <> Exn bad_alloc.
  Proof.
    intro P. unfold from_env_mem. destruct P as (P1 & P2 & P3 & P4 & P5). rewrite P5.
    assert (X : forall x, split_env e = Exn x -> x = ExOutOfRange).
    { unfold split_env. cbv zeta. intro x.
      do 4 (match goal with |- match ?x with Some _ => _ | None => _ end = _ -> _ => destruct x; [|congruence] end). discriminate. }
    destruct (split_env e) as [[[la co] mo]|x|?| |]; try discriminate; [apply spec_plenty; repeat split; auto|].
    specialize (X x eq_refl). subst x. discriminate.
  Qed.
  Lemma step_plenty k c t : plenty k -> fst (step k c t) <> Exn bad_alloc.
  Proof.
    intro P. assert (O : forall A B (f : A -> B) (o : outcome A) (t' : tables), o <> Exn bad_alloc -> fst (omap f o, t') <> Exn bad_alloc).
    { intros A B f o t' H. destruct o; cbn [fst omap]; try discriminate. intro X. apply H. injection X as ->. reflexivity. }
    destruct c as [la co mo|e|n|x]; unfold tcall_step.
    - pose proof (spec_plenty k la co mo t P) as H. destruct (from_spec_mem nd k la co mo t). apply O, H.
    - pose proof (env_plenty k e t P) as H. destruct (from_env_mem nd k e t). apply O, H.
    - unfold from_name_mem, fill_aliases. pose proof P as (P1 & _ & _ & P4 & _).
      match goal with |- context[fill_if_empty ?a ?b ?c ?d ?e ?f ?g] => destruct (fill_if_plenty a b c d e f g P1) as [m ->] end.
      rewrite P4. cbn [andb]. destruct (strict && existsb hi n); [discriminate|].
      match goal with |- context[from_env_mem nd k ?a ?b] => pose proof (env_plenty k a b P) as H; destruct (from_env_mem nd k a b) end.
      apply O, H.
    - unfold from_string_mem, fill_plurals. pose proof P as (_ & _ & P3 & _ & P5).
      match goal with |- context[fill_if_empty ?a ?b ?c ?d ?e ?f ?g] => destruct (fill_if_plenty a b c d e f g P3) as [m ->] end.
      rewrite P5. cbn [andb]. destruct (strict && existsb hi x); [discriminate|]. destruct (assoc _ m); discriminate.
  Qed.
End Calls.
