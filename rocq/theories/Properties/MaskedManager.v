(** C103: a DictionaryManager whose FileSystem delivers streams with exception masks. A [situation] is
    a file system and the masks of its streams at the moment of a call; [session_outcomes cf ops m] are
    the outcomes of the calls [ops] and the manager they leave if the streams have no masks,
    [x_session_outcomes cf ops m] if they have (Model/MaskedManager.v); the vocabulary is in
    Spec/MaskedManagerSpec.v. *)
From Verif.Model Require Import Base Log PluralForms Dictionary IConv Language Stream PoParser Manager Masked MaskedManager.
From Verif.Spec Require Import DictSpec IConvSpec LangSpec ParserSpec PoSpec ManagerSpec ReadSpec MaskedSpec MaskedManagerSpec.
From Verif.Proofs Require Import BaseFacts LangProofs ParserFuel ParserSafe ManagerLoad MaskedProofs MaskedManager MaskedFiles.
From Verif.Properties Require Import Parser Manager ReadError Masked.
Local Open Scope list_scope.

(** C103. If every file ends in a blank line (or cannot be opened, or reading it fails behind such a
    line), masks change nothing but the log, which gets reports of files that failed: all calls have
    the same outcomes, and the dictionaries are the same. *)
Theorem C103_blank_line_at_the_end :
  forall (cf : config) (ops : list (situation * mop)) (m m1 : manager) (os : list (outcome mout)),
  (forall si op, In (si, op) ops -> files_end_blank (si_fs si)) ->
  session_outcomes cf ops m = (os, m1) -> Forall ended os ->
  exists m2, x_session_outcomes cf ops m = (os, m2) /\ same_store m1 m2 /\ noisier (m_tr m1) (m_tr m2).
Proof.
  intros cf ops m m1 os W E F.
  assert (G : forall ops a b, (forall si op, In (si, op) ops -> files_end_blank (si_fs si)) -> rel eq noisier a b ->
            Forall ended (fst (session_outcomes cf ops a)) ->
            fst (x_session_outcomes cf ops b) = fst (session_outcomes cf ops a) /\ rel eq noisier (snd (session_outcomes cf ops a)) (snd (x_session_outcomes cf ops b))).
  { clear. intro ops. induction ops as [|[si op] ops IH]; intros a b W R F; cbn [session_outcomes x_session_outcomes] in *; [auto|].
    pose proof (lock_step cf (si_fs si) (si_mask si) eq noisier true (fun d => eq_refl) (fun d d' p => f_equal (fun d => add_fallback d p) (x:=d) (y:=d')) noisier_more
      (blank_file cf (si_fs si) (si_mask si) (W si op (or_introl eq_refl))) op a b R) as L.
    destruct (mstep cf (si_fs si) op a) as [o a'], (x_mstep cf (si_fs si) (si_mask si) op b) as [o' b']. cbn [fst snd] in L.
    specialize (IH a' b' (fun s p H => W s p (or_intror H))).
    destruct (session_outcomes cf ops a') as [os a''], (x_session_outcomes cf ops b') as [os' b'']. cbn [fst snd] in *.
    inversion F as [|? ? Ho Fo]; subst. destruct L as [-> R']; [destruct o; try exact Logic.I; try reflexivity; now apply Ho|].
    destruct (IH R' Fo) as [-> R'']. auto. }
  assert (R : rel eq noisier m m).
  { split; [reflexivity|]. split; [|apply noisier_refl]. induction (m_heap m); constructor; [split; reflexivity|assumption]. }
  pose proof (G ops m m W R) as X. rewrite E in X. cbn [fst snd] in X. destruct (X F) as (X1 & X2 & X3 & X4).
  destruct (x_session_outcomes cf ops m) as [os' m2]. cbn [fst snd] in *. subst os'. exists m2. split; [reflexivity|]. split; [|exact X4].
  assert (H : m_heap m1 = m_heap m2).
  { clear -X3. revert X3. generalize (m_heap m1), (m_heap m2). intros h h' X. induction X as [|[p d] [q d'] h h' [A B] X IH]; [reflexivity|]. cbn [fst snd] in *. now subst. }
  unfold same_store. destruct m1, m2. unfold upd_tr, upd_heap in *. cbn in *. injection X2. intros. subst. reflexivity.
Qed.

(** Whatever the files: no stream's exception reaches the client. If all calls end well without masks,
    they have the same outcomes with them, and the dictionaries are at the same places and know at
    most what they know without masks. *)
Theorem C103_no_exception_escapes :
  forall (cf : config) (ops : list (situation * mop)) (m m1 : manager) (os : list (outcome mout)),
  session_outcomes cf ops m = (os, m1) -> Forall ended_well os ->
  exists m2, x_session_outcomes cf ops m = (os, m2) /\ thinner_store m2 m1.
Proof.
  intros cf ops m m1 os E F.
  pose (Rd := fun d d' => thinner d' d). pose (Rl := fun _ _ : list event => True).
  assert (Fb : forall d d' p, Rd d d' -> Rd (add_fallback d p) (add_fallback d' p)).
  { intros d d' p (A1 & _ & _ & A4). split; [exact A1|]. split; [reflexivity|]. split; [reflexivity|]. exact A4. }
  assert (G : forall ops a b, rel Rd Rl a b -> Forall ended_well (fst (session_outcomes cf ops a)) ->
            fst (x_session_outcomes cf ops b) = fst (session_outcomes cf ops a) /\ rel Rd Rl (snd (session_outcomes cf ops a)) (snd (x_session_outcomes cf ops b))).
  { clear - Fb. intro ops. induction ops as [|[si op] ops IH]; intros a b R F; cbn [session_outcomes x_session_outcomes] in *; [auto|].
    pose proof (lock_step cf (si_fs si) (si_mask si) Rd Rl false thinner_refl Fb (fun _ _ _ H => H) (thin_file cf (si_fs si) (si_mask si)) op a b R) as L.
    destruct (mstep cf (si_fs si) op a) as [o a'], (x_mstep cf (si_fs si) (si_mask si) op b) as [o' b']. cbn [fst snd] in L.
    specialize (IH a' b').
    destruct (session_outcomes cf ops a') as [os a''], (x_session_outcomes cf ops b') as [os' b'']. cbn [fst snd] in *.
    inversion F as [|? ? Ho Fo]; subst. destruct L as [-> R']; [destruct o; try exact Logic.I; contradiction|].
    destruct (IH R' Fo) as [-> R'']. auto. }
  assert (R : rel Rd Rl m m).
  { split; [reflexivity|]. split; [|exact Logic.I]. induction (m_heap m); constructor; [split; [reflexivity|apply thinner_refl]|assumption]. }
  pose proof (G ops m m R) as X. rewrite E in X. cbn [fst snd] in X. destruct (X F) as (X1 & X2 & X3 & _).
  destruct (x_session_outcomes cf ops m) as [os' m2]. cbn [fst snd] in *. subst os'. exists m2. split; [reflexivity|]. split; [now symmetry|].
  split.
  - intro p. pose proof (on_get Rd _ _ p X3) as Y. destruct (heap_get (m_heap m1) p), (heap_get (m_heap m2) p); try contradiction; split; congruence.
  - intros p d' d H' H. pose proof (on_get Rd _ _ p X3) as Y. rewrite H, H' in Y. exact Y.
Qed.

(** A read error is reported if badbit is in the mask: loading a directory with one file for the
    language, the manager logs that the file failed, and why. With failbit or eofbit it logs this about
    every file, however well-formed. (The other outcomes are those of C21.) *)
Theorem C103_reported :
  forall (cf : config) (fs : file_system) (mk : bytes -> mask) (cs p f b : bytes) (i : istream) (l : language) (m0 : manager) (op : mop),
  l <> None -> get_country l = [] -> po_language cf f = l -> fs_dir fs p = Ret [f] ->
  fs_file fs (p ++ bs "/" ++ f) = Ret (Some i) -> length b <= cf_fuel cf ->
  (i = broken_after b /\ mk_bad (mk (p ++ bs "/" ++ f)) = true) \/
  (i = stream_of b /\ (mk_fail (mk (p ++ bs "/" ++ f)) = true \/ mk_eof (mk (p ++ bs "/" ++ f)) = true)) ->
  (m0 = fresh cf fs cs [p] /\ op = OpGetDictionaryLang l) \/
  (m0 = snd (x_mstep cf fs mk (OpSetLanguage l) (fresh cf fs cs [p])) /\ op = OpGetDictionary) ->
  let (o, m) := x_mstep cf fs mk op m0 in
  (exists r tr why, o = Ret r /\
     m_tr m = tr ++ [EvLog (log_error (bs "error: failure parsing: " ++ p ++ bs "/" ++ f)); EvLog (log_error why)]) \/
  (o = AssertFail /\ cf_ndebug cf = false) \/ (o = Ub UbCtype /\ cf_strict cf = true).
Proof.
  intros cf fs mk cs p f b i l mm op NN Co Pl D Fi Fu Ar Op. set (pf := p ++ bs "/" ++ f) in *.
  assert (A : armed (mk pf) cf (init_state cf i (new_dictionary cs))).
  { split; [reflexivity|]. destruct Ar as [(-> & M)|(-> & [M|M])]; [left|right; right|right; left]; auto. }
  destruct (po_stops (mk pf) cf pf i (new_dictionary cs) A) as (NR & NF).
  assert (Len : length (is_rest i) <= cf_fuel cf) by (destruct Ar as [(-> & _)|(-> & _)]; exact Fu). specialize (NF Len).
  assert (O : parse_outcome_ok cf (pr_outcome (x_po_parse (mk pf) cf pf i (new_dictionary cs))) \/ io_thrown (x_po_parse (mk pf) cf pf i (new_dictionary cs))).
  { destruct (po_cut (mk pf) cf pf i (new_dictionary cs)) as [-> |(E & _)]; [left; apply parse_outcomes|right; exact E]. }
  assert (NL : is_none l = false) by (now destruct l).
  assert (Main : forall m0, m_cache m0 = [] /\ m_next m0 = 0 /\ m_path m0 = [p] /\ m_charset m0 = cs /\ m_tr m0 = [] /\ m_heap m0 = [] ->
    let (o, m) := x_get_dictionary_lang cf fs mk depth0 l m0 in
    (exists r tr why, o = Ret r /\ m_tr m = tr ++ [EvLog (log_error (bs "error: failure parsing: " ++ pf)); EvLog (log_error why)]) \/
    (o = AssertFail /\ cf_ndebug cf = false) \/ (o = Ub UbCtype /\ cf_strict cf = true)).
  2: { assert (M0 : forall fresh, m_cache fresh = [] /\ m_next fresh = 0 /\ m_path fresh = [p] /\ m_charset fresh = cs /\ m_tr fresh = [] /\ m_heap fresh = [] ->
         let u := snd (set_language l fresh) in m_cache u = [] /\ m_next u = 0 /\ m_path u = [p] /\ m_charset u = cs /\ m_tr u = [] /\ m_heap u = []).
       { intros x H. unfold set_language, mmod. cbn [snd]. cbv zeta. destruct (negb _); exact H. }
       assert (Fr : m_cache (fresh cf fs cs [p]) = [] /\ m_next (fresh cf fs cs [p]) = 0 /\ m_path (fresh cf fs cs [p]) = [p] /\
         m_charset (fresh cf fs cs [p]) = cs /\ m_tr (fresh cf fs cs [p]) = [] /\ m_heap (fresh cf fs cs [p]) = []) by (repeat split).
       destruct Op as [(-> & ->)|(-> & ->)]; cbn [x_mstep mstep]; unfold mmap.
       - specialize (Main _ Fr). unfold mbind. destruct (x_get_dictionary_lang cf fs mk depth0 l (fresh cf fs cs [p])) as [o m].
         destruct Main as [(r & tr & why & -> & E)|[(-> & E)|(-> & E)]]; cbn [mret]; [left; eexists; exists tr, why; split; [reflexivity|exact E]| |]; auto.
       - change (snd (mbind (set_language l) (fun _ => mret OutUnit) (fresh cf fs cs [p]))) with (snd (set_language l (fresh cf fs cs [p]))).
         specialize (Main _ (M0 _ Fr)). cbv zeta in M0. unfold x_get_dictionary, mbind, mget, mmod.
         assert (La : m_lang (snd (set_language l (fresh cf fs cs [p]))) = l /\ m_cur (snd (set_language l (fresh cf fs cs [p]))) = None).
         { unfold set_language, mmod. cbn [snd]. change (m_lang (fresh cf fs cs [p])) with (@None language_spec). destruct l as [x|]; [|contradiction]. split; reflexivity. }
         destruct La as (La & Cu). rewrite Cu. cbn [m_lang]. rewrite La, NL.
         destruct (x_get_dictionary_lang cf fs mk depth0 l (snd (set_language l (fresh cf fs cs [p])))) as [o m].
         destruct Main as [(r & tr & why & -> & E)|[(-> & E)|(-> & E)]]; cbn [mret upd_lang m_tr]; [left; eexists; exists tr, why; split; [reflexivity|exact E]| |]; auto. }
  clear Op op mm. intros m0 (M1 & M2 & M3 & M4 & M5 & M6).
  unfold depth0. cbn [x_get_dictionary_lang]. rewrite NL, Bool.andb_false_r, Co. cbn [is_nil].
  unfold mbind, mget, mmod, mret. rewrite M1. cbn [cache_find]. rewrite M2. cbn [alloc m_path]. rewrite M3. cbn [rev app x_load_dirs].
  unfold x_load_dir, mbind, mlift. rewrite D. rewrite best_eq. cbn [pbest]. unfold pconsider. unfold po_language in Pl.
  destruct (has_suffix f dot_po) eqn:Suf; [|congruence].
  destruct (convertFilename2Language (cf_strict cf) f) as [stem|?|?| |] eqn:Cv; try congruence. cbn [obind].
  destruct (from_env (cf_ndebug cf) stem) as [po|?|?| |] eqn:Fe; try congruence. subst po. rewrite NL. cbn [snd].
  assert (M9 : lang_match l l = 9%Z) by (apply lang_match_nine; auto). rewrite M9. cbn [Z.ltb Z.compare fst snd app].
  assert (Nf : is_nil f = false) by (destruct f; [discriminate Suf|reflexivity]). rewrite Nf. fold pf.
  unfold x_load_file. rewrite Fi. cbn [alloc upd_tr m_heap m_tr]. rewrite M2, M4, M5, M6. cbn [heap_get Nat.eqb]. cbv zeta.
  set (r' := x_po_parse (mk pf) cf pf i (new_dictionary cs)) in *. clearbody r'.
  destruct (pr_outcome r') as [[]|e|u| |] eqn:Eo; [exfalso; exact (NR tt eq_refl)| | | |contradiction].
  - assert (S : is_std e = true).
    { destruct O as [O|O]; [|unfold io_thrown in O; rewrite Eo in O; injection O as ->; reflexivity]. destruct e; try contradiction O; reflexivity. }
    rewrite S. cbn [fst snd upd_tr upd_heap m_tr]. left. eexists. eexists. exists (what e). split; reflexivity.
  - destruct O as [O|O]; [|unfold io_thrown in O; rewrite Eo in O; discriminate O]. right. right. destruct u; try contradiction O. auto.
  - destruct O as [O|O]; [|unfold io_thrown in O; rewrite Eo in O; discriminate O]. right. left. split; [reflexivity|apply O].
Qed.

(** badbit alone changes nothing at all while reading works. *)
Theorem C103_badbit_harmless :
  forall (cf : config) (ops : list (situation * mop)) (m m1 : manager) (os : list (outcome mout)),
  (forall si op, In (si, op) ops ->
     (forall f, mk_eof (si_mask si f) = false /\ mk_fail (si_mask si f) = false) /\
     forall f i, fs_file (si_fs si) f = Ret (Some i) -> is_break i = false) ->
  session_outcomes cf ops m = (os, m1) -> Forall ended os ->
  x_session_outcomes cf ops m = (os, m1).
Proof.
  intros cf ops m m1 os W E F.
  assert (Same : forall a b, rel eq eq a b -> a = b).
  { clear. intros a b (X2 & X3 & X4).
    assert (H : m_heap a = m_heap b).
    { clear -X3. revert X3. generalize (m_heap a), (m_heap b). intros h h' X. induction X as [|[p d] [q d'] h h' [A B] X IH]; [reflexivity|]. cbn [fst snd] in *. now subst. }
    destruct a, b. unfold upd_tr, upd_heap in *. cbn in *. injection X2. intros. subst. reflexivity. }
  assert (R : forall a, rel eq eq a a).
  { intro a. split; [reflexivity|]. split; [|reflexivity]. induction (m_heap a); constructor; [split; reflexivity|assumption]. }
  assert (Fb : forall d d' p, d = d' -> add_fallback d p = add_fallback d' p) by (intros d d' p ->; reflexivity).
  assert (Ap : forall t t' e : list event, t = t' -> t ++ e = t' ++ e) by (intros t t' e ->; reflexivity).
  revert m os m1 E F. induction ops as [|[si op] ops IH]; intros m os m1 E F; cbn [session_outcomes x_session_outcomes] in *; [exact E|].
  destruct (W si op (or_introl eq_refl)) as (Wm & Wf).
  assert (File : forall f i d d', fs_file (si_fs si) f = Ret (Some i) -> d = d' ->
    let r := po_parse cf f i d in let r' := x_po_parse (si_mask si f) cf f i d' in tame true (pr_outcome r) ->
    pr_dict r = pr_dict r' /\ fst (seen f (pr_outcome r')) = fst (seen f (pr_outcome r)) /\
    forall t t', t = t' -> (t ++ pr_trace r) ++ snd (seen f (pr_outcome r)) = (t' ++ pr_trace r') ++ snd (seen f (pr_outcome r'))).
  { intros f i d d' Ef <-. cbv zeta. intros _. rewrite (po_equal (si_mask si f) cf f i d (proj1 (Wm f)) (proj2 (Wm f)) (Wf f i Ef)).
    split; [reflexivity|]. split; [reflexivity|]. intros t t' ->. reflexivity. }
  pose proof (lock_step cf (si_fs si) (si_mask si) eq eq true (fun d => eq_refl) Fb Ap File op m m (R m)) as L.
  destruct (mstep cf (si_fs si) op m) as [o a'], (x_mstep cf (si_fs si) (si_mask si) op m) as [o' b']. cbn [fst snd] in L.
  destruct (session_outcomes cf ops a') as [os1 a''] eqn:E1. injection E as <- <-. inversion F as [|? ? Ho Fo]; subst.
  destruct L as [-> R']; [destruct o; try exact Logic.I; try reflexivity; now apply Ho|]. apply Same in R'. subst b'.
  rewrite (IH (fun s p H => W s p (or_intror H)) a' os1 a'' E1 Fo). reflexivity.
Qed.

(** Three sessions that load the German dictionary: on the example disk with failbit, where the entry
    "b" of hi/de.po is lost and the file reported; on a disk whose file ends in a blank line, where
    nothing is lost but the file reported all the same; and on the disk with read errors of C79 with
    badbit, where the unreadable files are reported. *)
Definition blank_disk : os_state := {|
  os_dir := fun p => if bytes_eqb p (bs "hi") then Some [bs "de.po"] else None;
  os_file := fun f => if bytes_eqb f (bs "hi/de.po") then Some (hi_de ++ [c_lf]) else None |}.
Definition german (fs : file_system) (mk : mask) : list (situation * mop) :=
  List.map (fun op => ({| si_fs := fs; si_mask := fun _ => mk |}, op)) [OpAddDirectory (bs "hi") false; OpGetDictionaryLang de].
Definition outs : list (outcome mout) := [Ret OutUnit; Ret (OutRef (RefHeap 0))].
Definition knows (m : manager) (id : bytes) : option (list bytes) :=
  match heap_get (m_heap m) 0 with Some d => lookup d (None, id) | None => None end.
Definition report : list event :=
  [EvLog (log_error (bs "error: failure parsing: hi/de.po")); EvLog (log_error io_failure)].
Example C103_nonvacuous :
  (exists m1 m2, session_outcomes ex_run (german ex_fs failbit) (new_manager utf8) = (outs, m1) /\ Forall ended_well outs /\
     knows m1 (bs "a") = Some [bs "A"] /\ knows m1 (bs "b") = Some [bs "B"] /\ m_tr m1 = [] /\
     x_session_outcomes ex_run (german ex_fs failbit) (new_manager utf8) = (outs, m2) /\
     knows m2 (bs "a") = Some [bs "A"] /\ knows m2 (bs "b") = None /\ m_tr m2 = report) /\
  (exists m1 m2, session_outcomes ex_run (german (unix_file_system blank_disk) failbit) (new_manager utf8) = (outs, m1) /\ m_tr m1 = [] /\
     x_session_outcomes ex_run (german (unix_file_system blank_disk) failbit) (new_manager utf8) = (outs, m2) /\
     knows m2 (bs "b") = Some [bs "B"] /\ m_tr m2 = report) /\
  files_end_blank (unix_file_system blank_disk) /\ ~ files_end_blank ex_fs /\
  (exists m2, x_session_outcomes ex_run (german (faulty_file_system bad_disk bad_files) badbit) (new_manager utf8) = (outs, m2) /\
     knows m2 (bs "a") = Some [bs "A"] /\ m_tr m2 = report).
Proof.
  split; [eexists; eexists; split; [vm_compute; reflexivity|]; split; [repeat apply Forall_cons; try exact Logic.I; apply Forall_nil|]; vm_compute; repeat (split; [reflexivity|]); reflexivity|].
  split; [eexists; eexists; split; [vm_compute; reflexivity|]; vm_compute; repeat (split; [reflexivity|]); reflexivity|].
  split; [|split].
  - intros f i H. cbn [unix_file_system fs_file blank_disk os_file] in H. destruct (bytes_eqb f (bs "hi/de.po")); injection H as <-; [right|left; reflexivity].
    exists (hi_de ++ [c_lf]), []. split; [|split; [intros []|left; reflexivity]].
    right. exists hi_de, []. split; [reflexivity|]. split; [right; exists (removelast hi_de); vm_compute; reflexivity|]. split; [constructor|intros []].
  - intro H. specialize (H (bs "hi/de.po") (stream_of hi_de) eq_refl). destruct H as [H|(b & l & B & _ & [H|H])]; try discriminate H.
    assert (X : b = hi_de) by (now injection H). subst b. clear H. destruct B as [B|(p & w & E & C & W & _)]; [discriminate B|].
    assert (L : last (removelast hi_de) c_lf = c_dq) by (vm_compute; reflexivity).
    rewrite E, app_assoc, removelast_last in L. destruct w as [|c w _] using rev_ind.
    + rewrite app_nil_r in *. destruct C as [->|[p' ->]]; [discriminate E|]. rewrite last_last in L. discriminate L.
    + rewrite app_assoc, last_last in L. subst c. apply Forall_app in W as [_ W]. inversion W. discriminate.
  - eexists. split; [vm_compute; reflexivity|]. vm_compute. repeat (split; [reflexivity|]). reflexivity.
Qed.
Print Assumptions C103_blank_line_at_the_end.
Print Assumptions C103_no_exception_escapes.
Print Assumptions C103_reported.
Print Assumptions C103_badbit_harmless.
