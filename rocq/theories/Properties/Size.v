(** Properties about how much is kept in memory: C91. The vocabulary is in
    Spec/SizeSpec.v. *)
From Verif.Model Require Import Base Log PluralForms Dictionary IConv Language Stream PoParser Manager.
From Verif.Spec Require Import DictSpec IConvSpec LangSpec ParserSpec ManagerSpec PoSpec SoundSpec SizeSpec.
From Verif.Proofs Require Import BaseFacts DictProofs LangProofs ParserSafe ParserStrict DocSound ManagerLoad ManagerOwn ManagerGet ManagerStep IConvProofs SizeProofs.
From Verif.Spec Require DiagSpec.
From Verif.Spec Require Import DamageSpec FullSpec.
From Verif.Proofs Require Import ParserFuel LogSize.
From Verif.Properties Require Import Parser Document Sound Diagnostics Full Run Manager ManagerLife.
From Coq Require Import Permutation.
Local Open Scope list_scope.

Lemma parse_size cf fn b d : iconv_ok (cf_iconv cf) -> pr_outcome (po_parse cf fn (stream_of b) d) <> Ub UbCtype ->
  let r := po_parse cf fn (stream_of b) d in
  total call_size (pr_calls r) <= 4 * length b /\ length (pr_calls r) <= length b /\
  dict_size (pr_dict r) <= dict_size d + 4 * length b /\ messages (pr_dict r) <= messages d + length b.
Proof.
  intros OK H r. assert (X : total call_size (pr_calls r) <= 4 * length b /\ length (pr_calls r) <= length b).
  { unfold r. destruct (strict_or_ub cf fn (stream_of b) d) as [E|E]; [contradiction|]. rewrite E.
    destruct (parse_sound (set_strict cf false) fn b d eq_refl) as (ps & rest & H1 & _ & -> & H4).
    apply (explained_size OK) in H4 as [S1 S2]. pose proof (file_lines_size b) as F. rewrite H1 in F. unfold texts_size in *. rewrite total_app in F. lia. }
  destruct X as [X1 X2]. split; [exact X1|]. split; [exact X2|]. unfold r in *. rewrite (proj1 (parse_effects _ _ _ _)).
  destruct (calls_dict_size (pr_calls (po_parse cf fn (stream_of b) d)) d). lia.
Qed.

(** C91. No file makes the parser store more than four bytes for each of its own, or more
    messages than it has bytes, whatever is in it and however the parse ends. ... *)
Theorem C91_a_file_is_not_amplified :
  forall (cf : config) (fn b : bytes) (d : dictionary) (n : nat),
  iconv_ok (cf_iconv cf) ->
  let r := po_parse (with_fuel cf n) fn (stream_of b) d in
  pr_outcome r <> Ub UbCtype ->
  total call_size (pr_calls r) <= 4 * length b /\ length (pr_calls r) <= length b /\
  dict_size (pr_dict r) <= dict_size d + 4 * length b /\ messages (pr_dict r) <= messages d + length b.
Proof. intros cf fn b d n OK r H. exact (parse_size (with_fuel cf n) fn b d OK H). Qed.

(** ... and not more than it has itself, if its charset is the dictionary's. *)
Theorem C91_same_charset :
  forall (cf : config) (fn b : bytes) (d : dictionary) (n : nat),
  let r := po_parse (with_fuel cf n) fn (stream_of b) d in
  pr_outcome r <> Ub UbCtype ->
  exists (ps : list piece_of_file) (rest : list bytes),
    file_lines b = pieces_lines ps ++ rest /\
    entries_ok false false (pieces_entries ps) /\
    (own_charset (d_charset d) (pieces_entries ps) ->
     total call_size (pr_calls r) <= length b /\ dict_size (pr_dict r) <= dict_size d + length b).
Proof.
  intros cf fn b d n r H. destruct (C59_every_call_is_literal cf fn b d n H) as (ps & rest & H1 & H2 & H3).
  exists ps, rest. split; [exact H1|]. split; [exact H2|]. intro O. specialize (H3 O).
  pose proof (file_lines_size b) as F. rewrite H1 in F. unfold texts_size in *. rewrite total_app in F.
  pose proof (pieces_literal_size ps) as P. unfold texts_size in *. rewrite <- H3 in P. fold r in P.
  unfold r in *. rewrite (proj1 (parse_effects _ _ _ _)) at 1.
  destruct (calls_dict_size (pr_calls (po_parse (with_fuel cf n) fn (stream_of b) d)) d). lia.
Qed.

(** ** the manager *)
Section Bound.
  Variable cf : config.
  Variable B : nat.
  Hypothesis OK : iconv_ok (cf_iconv cf).
  Hypothesis ST : cf_strict cf = false.
  Definition grows (k : nat) (d d' : dictionary) : Prop :=
    dict_size d' <= dict_size d + k * (4 * B) /\ messages d' <= messages d + k * B.
  Lemma no_ctype fn i d : pr_outcome (po_parse cf fn i d) <> Ub UbCtype.
  Proof.
    pose proof (parse_outcomes cf fn i d) as H. intro E. rewrite E in H. cbn in H. congruence.
  Qed.
  Lemma parse_failed fn d : pr_dict (po_parse cf fn failed_stream d) = d.
  Proof. destruct cf as [? ? ? n ?]. destruct n; reflexivity. Qed.
  Lemma pfile_grows fs f d : files_within B fs -> grows 1 d (snd (fst (pfile cf fs f d))).
  Proof.
    intro W. unfold pfile, grows. destruct (fs_file fs f) as [[i|]|e|u| |] eqn:F; cbn [fst snd]; try lia; [|destruct (is_std e); cbn [fst snd]; lia].
    assert (X : grows 1 d (pr_dict (po_parse cf f i d))).
    { destruct (W f i F) as [->|(b & -> & L)]; [rewrite parse_failed; unfold grows; lia|].
      destruct (parse_size cf f b d OK (no_ctype _ _ _)) as (_ & _ & P1 & P2). unfold grows. lia. }
    unfold grows in X. destruct (pr_outcome _) as [?|e|?| |]; cbn [fst snd]; try exact X. destruct (is_std e); exact X.
  Qed.
  Lemma pdir_grows fs l p d : files_within B fs -> grows 1 d (snd (fst (pdir cf fs l p d))).
  Proof.
    intro W. assert (R : grows 1 d d) by (unfold grows; lia). unfold pdir. destruct (fs_dir fs p) as [files|e|u| |]; try exact R.
    destruct (pbest _ _ _ _) as [[b|e|u| |] t]; try exact R. destruct (is_nil _); [exact R|].
    pose proof (pfile_grows fs (p ++ bs "/" ++ fst b) d W) as H. destruct (pfile _ _ _ _) as [[o d'] t']. exact H.
  Qed.
  Lemma pload_grows fs l ps : files_within B fs -> forall d, grows (length ps) d (snd (fst (pload cf fs l ps d))).
  Proof.
    intro W. induction ps as [|p ps IH]; intro d; cbn [pload length]; [unfold grows; cbn; lia|].
    pose proof (pdir_grows fs l p d W) as H. destruct (pdir cf fs l p d) as [[[[]|e|u| |] d'] t]; cbn [fst snd] in *; try (unfold grows in *; lia).
    specialize (IH d'). destruct (pload cf fs l ps d') as [[o d''] t']. cbn [fst snd] in *. unfold grows in *. lia.
  Qed.
  Definition bounded (m : manager) : Prop := forall p d, heap_get (m_heap m) p = Some d ->
    dict_size d <= length (m_path m) * (4 * B) /\ messages d <= length (m_path m) * B.
  Local Opaque from_spec languages.
  Lemma bounded_put m id d t : bounded m -> dict_size d <= length (m_path m) * (4 * B) /\ messages d <= length (m_path m) * B -> bounded (put m id d t).
  Proof.
    intros H D p d' E. unfold put in *. cbn [upd_tr upd_heap m_heap m_path] in *. destruct (Nat.eq_dec id p) as [->|N].
    - rewrite heap_get_set_same in E. now injection E as <-.
    - rewrite heap_get_set_other in E by exact N. exact (H p d' E).
  Qed.
  Lemma loaded_dict fs m l : files_within B fs ->
    let d := snd (fst (pload cf fs l (rev (m_path m)) (new_dictionary (m_charset m)))) in
    dict_size d <= length (m_path m) * (4 * B) /\ messages d <= length (m_path m) * B.
  Proof.
    intros W d. pose proof (pload_grows fs l (rev (m_path m)) W (new_dictionary (m_charset m))) as H. fold d in H. unfold grows in H.
    rewrite rev_length in H. change (dict_size (new_dictionary (m_charset m))) with 0 in H. change (messages (new_dictionary (m_charset m))) with 0 in H. lia.
  Qed.
  Lemma bounded_loaded fs m l : files_within B fs -> bounded m -> bounded (loaded cf fs m l).
  Proof.
    intros W H. unfold loaded. apply bounded_put; [|exact (loaded_dict fs m l W)].
    intros p d. cbn [alloc m_heap heap_get m_path]. destruct (Nat.eqb p (m_next m)); [|apply H].
    intro E. injection E as <-. change (dict_size (new_dictionary (m_charset m))) with 0. change (messages (new_dictionary (m_charset m))) with 0. lia.
  Qed.
  Lemma bounded_leaf fs m l : files_within B fs -> bounded m -> bounded (leaf_state cf fs m l).
  Proof. intros W H. unfold leaf_state. destruct (asserts cf l); [exact H|]. destruct (cache_find l (m_cache m)); [exact H|]. now apply bounded_loaded. Qed.
  Lemma bounded_get fs m l : files_within B fs -> bounded m -> bounded (snd (get_state cf fs m l)).
  Proof.
    intros W H. unfold get_state. destruct (is_nil (get_country l)); [now apply bounded_leaf|].
    destruct (cache_find l (m_cache m)); [exact H|]. pose proof (bounded_loaded fs m l W H) as H1.
    destruct (fst (fst (pload cf fs l (rev (m_path m)) (new_dictionary (m_charset m))))) as [[]|e|u| |]; cbn [snd]; try exact H1.
    destruct (from_spec (cf_ndebug cf) (get_language l) [] []) as [b|e|u| |]; cbn [snd]; try exact H. cbv zeta.
    pose proof (bounded_leaf fs (loaded cf fs m l) b W H1) as H2.
    destruct (leaf_outcome cf fs (loaded cf fs m l) b) as [q|e|u| |]; cbn [snd]; try exact H2.
    apply bounded_put; [exact H2|]. rewrite (gr_path _ _ (leaf_grown cf fs (loaded cf fs m l) b)), (gr_path _ _ (loaded_grown cf fs m l)).
    exact (loaded_dict fs m l W).
  Qed.
  Lemma bounded_cleared m m1 : cleared m m1 -> bounded m1.
  Proof. intros (E & _) p d. rewrite E. discriminate. Qed.
  Lemma bounded_step fs op m : files_within B fs -> own (cf_ndebug cf) m -> client_op op -> bounded m -> bounded (snd (mstep cf fs op m)).
  Proof.
    intros W O C H. destruct op as [l|c|b|p pr|p| |l| | |].
    - rewrite do_set_language. cbn [snd]. destruct (lang_eqb _ _); exact H.
    - destruct (do_set_charset cf fs c m O) as (m1 & C1 & _ & ->). cbn [snd]. exact (bounded_cleared m m1 C1).
    - destruct (do_set_use_fuzzy cf fs b m O) as (m1 & C1 & _ & ->). cbn [snd]. exact (bounded_cleared m m1 C1).
    - destruct (in_dec (list_eq_dec Ascii.ascii_dec) p (m_path m)) as [I|I]; [now rewrite do_add_present|].
      destruct (do_add_directory cf fs p pr m O I) as (m1 & C1 & _ & ->). cbn [snd]. intros q d. cbn [upd_path m_heap]. destruct C1 as (E & _). rewrite E. discriminate.
    - destruct (in_dec (list_eq_dec Ascii.ascii_dec) p (m_path m)) as [I|I]; [|now rewrite do_remove_absent].
      destruct (do_remove_directory cf fs p m O I) as (m1 & C1 & _ & ->). cbn [snd]. intros q d. cbn [upd_path m_heap]. destruct C1 as (E & _). rewrite E. discriminate.
    - rewrite do_get by apply (own_lang _ _ O). destruct (m_cur m); [exact H|]. destruct (is_none (m_lang m)); [exact H|].
      pose proof (bounded_get fs m (m_lang m) W H) as G. destruct (get_state cf fs m (m_lang m)) as [[?|?|?| |] m']; exact G.
    - rewrite do_get_lang by exact C. cbn [snd]. now apply bounded_get.
    - rewrite do_get_languages. exact H.
    - rewrite do_get_language. exact H.
    - rewrite do_get_use_fuzzy. exact H.
  Qed.
  Lemma bounded_run ops : forall m, Forall (fun o => files_within B (fst o)) ops -> valid ops -> own (cf_ndebug cf) m -> bounded m ->
    bounded (mrun cf ops m).
  Proof.
    induction ops as [|[fs op] ops IH]; intros m W V O H; [exact H|]. inversion W as [|? ? W1 W2]; subst. inversion V as [|? ? V1 V2]; subst. cbn [fst snd] in *.
    change (mrun cf ((fs, op) :: ops) m) with (mrun cf ops (snd (mstep cf fs op m))). apply IH; auto.
    - now apply step_own.
    - now apply bounded_step.
  Qed.
End Bound.

(** After any history of calls - every dictionary dropped and loaded again any number of
    times, files changing in between - each dictionary a manager keeps holds at most four
    bytes for each byte of a file, once per directory of the present search path; and it
    keeps at most one dictionary per language it knows. *)
Theorem C91_manager :
  forall (cf : config) (cs : bytes) (ops : list (file_system * mop)) (B : nat),
  iconv_ok (cf_iconv cf) -> cf_strict cf = false -> valid ops ->
  Forall (fun o => files_within B (fst o)) ops ->
  let m := mrun cf ops (new_manager cs) in
  let dirs := length (path_after [] (List.map snd ops)) in
  (forall p d, heap_get (m_heap m) p = Some d -> dict_size d <= dirs * (4 * B) /\ messages d <= dirs * B) /\
  length (m_heap m) <= S (length languages).
Proof.
  intros cf cs ops B OK ST V W m dirs. pose proof (run_inv cf ops (new_manager cs) V (own_new cf cs) (NoDup_nil _)) as (O & _ & P & _ & _).
  fold m in O, P. change (m_path (new_manager cs)) with (@nil bytes) in P. unfold dirs. rewrite <- P. split.
  - apply (bounded_run cf B OK ST ops (new_manager cs) W V (own_new cf cs)). intros p d E. discriminate E.
  - rewrite <- (map_length fst (m_heap m)), (Permutation_length (own_heap _ _ O)), map_length, <- (map_length fst (m_cache m)).
    rewrite <- (map_length Some languages). change (S (length (List.map Some languages))) with (length (None :: List.map Some languages)).
    apply NoDup_incl_length; [apply (own_keys _ _ O)|]. intros l L. pose proof (own_known _ _ O) as K.
    apply in_map_iff in L as ([l' q] & <- & L). unfold keys_known in K. rewrite Forall_forall in K. specialize (K _ L). cbn [fst] in *. destruct l' as [s|]; [right; now apply in_map|now left].
Qed.

(** A converter to UTF-32: four bytes for each byte. *)
Definition wide_iconv : iconv_impl := {|
  ic_state := unit;
  ic_open := fun _ _ => inl tt;
  ic_conv := fun _ text cap => (tt, firstn cap (flat_map (fun c => [chr 0; chr 0; chr 0; c]) text), None);
  ic_reset := fun st => st |}.
Definition wide_cf : config :=
  {| cf_pedantic := true; cf_strict := false; cf_ndebug := false; cf_fuel := 60; cf_iconv := wide_iconv |}.
Definition wide_file : bytes := file [bs "msgid ``"; bs "msgstr `Content-Type: text/plain; charset=ISO-8859-1\n`";
  bs ""; bs "msgid `a`"; bs "msgstr `0123456789012345678901234567890123456789012345678901234567890123456789`";
  bs ""; bs "msgctxt `c`"; bs "msgid `b`"; bs "msgid_plural `bs`"; bs "msgstr[0] `B`"; bs "msgstr[1] `BB`"].
(** the bounds hold with something to bound: the dictionary is larger than the file when the
    file is converted, and smaller when it is not *)
Example C91_nonvacuous :
  iconv_ok wide_iconv /\
  (let r := po_parse wide_cf (bs "f.po") (stream_of wide_file) (new_dictionary (bs "UTF-32BE")) in
   pr_outcome r = Ret tt /\ length wide_file < dict_size (pr_dict r) /\ messages (pr_dict r) = 2 /\ length (pr_calls r) = 2) /\
  (let r := po_parse wide_cf (bs "f.po") (stream_of wide_file) (new_dictionary (bs "ISO-8859-1")) in
   pr_outcome r = Ret tt /\ dict_size (pr_dict r) = 76) /\
  iconv_ok (cf_iconv ex_run) /\ valid stormy /\ Forall (fun o => files_within 200 (fst o)) stormy /\
  (let m := mrun ex_run stormy (new_manager utf8) in
   List.map (fun e => 0 <? dict_size (snd e)) (m_heap m) = [true; true] /\ path_after [] (List.map snd stormy) = [bs "hi"; bs "lo"]).
Proof.
  split; [intros st text cap; cbn; apply firstn_le_length|].
  split; [vm_compute; split; [reflexivity|]; split; [|split; reflexivity]; repeat (apply le_n || apply le_S)|].
  split; [vm_compute; split; reflexivity|].
  split; [|split; [apply C47_nonvacuous|split]].
  - exact (iconv_of_ok _ _).
  - assert (W : files_within 200 ex_fs).
    { intros name i. unfold ex_fs, unix_file_system. cbn [fs_file os_file ex_os].
      destruct (bytes_eqb name (bs "hi/de.po")); [|destruct (bytes_eqb name (bs "hi/de_AT.po")); [|destruct (bytes_eqb name (bs "lo/de.po"))]];
        intro E; injection E as <-; [right|right|right|now left]; eexists; (split; [reflexivity|]); vm_compute; repeat (apply le_n || apply le_S). }
    unfold stormy. rewrite Forall_map. apply Forall_forall. intros x _. exact W.
  - vm_compute. split; reflexivity.
Qed.
(** C92. The number of messages logged about a file is linear in its size, whatever is in it
    (complete files; a run that is undefined because of C37 is excluded) ... *)
Theorem C92_messages_are_bounded :
  forall (cf : config) (fn b : bytes) (d : dictionary) (r : parse_result),
  complete b -> parses_to cf fn (stream_of b) d r -> pr_outcome r <> Ub UbCtype ->
  log_count (pr_trace r) <= 2 * (length b + 1).
Proof.
  intros cf fn b d r Hc P U. destruct (C73_every_file_is_described b Hc) as ((sgs & ms) & (El & Hok & Hd) & _). cbn [fst snd] in *.
  destruct (C73_strict_platforms cf fn b d sgs ms r Hc El Hok Hd P) as [E|(_ & _ & _ & T)]; [contradiction|]. rewrite T, count_app.
  pose proof (within_segs fn (cf_pedantic cf) (cf_ndebug cf) sgs false 1 ms (RunSpec.start (cf_iconv cf) d)) as H.
  rewrite El, weight_app in H. pose proof (file_weight b Hc) as W. change (weight [[]]) with 1 in H.
  change (log_count (RunSpec.w_log (RunSpec.start (cf_iconv cf) d))) with 0 in H.
  match goal with |- context [log_count (if ?c then ?a else [])] => assert (Z : log_count (if c then a else []) = 0) end.
  { destruct (finished _); [|reflexivity]. unfold iconv_destroy. destruct (cv_cd _); reflexivity. }
  lia.
Qed.

(** ... but their text is not: every unknown escape sequence is reported with the whole line
    it is in, so that one line of 2n bytes makes 2n^2 bytes of log. *)
Definition escapes_doc (n : nat) : document :=
  {| dc_blocks := [];
     dc_last := {| bl_comments := []; bl_entry := Some {| en_ctxt := None; en_id := rl (bs "a");
       en_body := PoStr {| lt_head := {| ck_lead := [c_sp]; ck_body := List.repeat (Other (chr 113)) n; ck_trail := [] |}; lt_more := [] |} |} |} |}.
Theorem C92_log_is_quadratic :
  forall (cf : config) (fn : bytes) (d : dictionary) (n : nat),
  clean (cf_strict cf) (d_charset d) ->
  exists (b : bytes) (r : parse_result),
    length b = 2 * n + 20 /\ complete b /\
    parses_to cf fn (stream_of b) d r /\ pr_outcome r = Ret tt /\
    2 * n * n <= log_bytes (pr_trace r).
Proof.
  intros cf fn d n Hcs. set (D := escapes_doc n). set (body := List.repeat (Other (chr 113)) n).
  assert (HD : doc_ok (cf_strict cf) D).
  { split; [constructor|]. split; [constructor|]. cbn [doc_entries dc_blocks dc_last D escapes_doc blocks_entries List.map List.concat app opt_list bl_entry entries_ok].
    split; [|exact Logic.I]. split; [exact Logic.I|]. split; [now apply rl_ok|]. split; [|exact Logic.I]. cbn [body_ok en_body].
    constructor; [|constructor]. split; [repeat constructor|]. split; [now apply one_line_b|]. split; [|split; [now apply one_line_b|intros _; reflexivity]].
    apply Forall_forall. intros p Hp. apply repeat_spec in Hp as ->. split; [reflexivity|discriminate]. }
  assert (Ho : own_charset (d_charset d) (doc_entries D)) by (constructor; [exact Logic.I|constructor]).
  destruct (C60_exact_log cf fn D d HD Hcs Ho) as (r & P & O & T). exists (doc_text D), r.
  assert (LB : length (List.concat (List.map piece_text body)) = 2 * n).
  { unfold body. clear. induction n as [|n IH]; [reflexivity|]. cbn [List.repeat List.map List.concat]. rewrite app_length, IH. cbn [piece_text length]. lia. }
  set (line := bs "msgstr" ++ chunk_text {| ck_lead := [c_sp]; ck_body := body; ck_trail := [] |}).
  assert (LL : length line = 2 * n + 9).
  { unfold line, chunk_text. rewrite app_length. cbn [ck_lead ck_body ck_trail]. rewrite app_length. cbn [length]. rewrite app_length, LB. change (length (bs "msgstr")) with 6. cbn [length]. lia. }
  assert (ET : doc_text D = q (bs "msgid `a`") ++ c_lf :: line ++ [c_lf]) by reflexivity.
  split. { rewrite ET, app_length. cbn [length]. rewrite app_length, LL. change (length (q (bs "msgid `a`"))) with 9. cbn [length]. lia. }
  split. { right. exists (q (bs "msgid `a`") ++ c_lf :: line). rewrite ET, <- app_assoc. reflexivity. }
  split; [exact P|]. split; [exact O|]. rewrite T. unfold DiagSpec.doc_log. cbn [dc_blocks D escapes_doc DiagSpec.blocks_log app].
  unfold DiagSpec.block_log, D, escapes_doc. fold body. cbn [dc_last bl_entry bl_comments]. unfold DiagSpec.entry_log. cbn [en_ctxt en_id en_body DiagSpec.ctxt_log app DiagSpec.body_log].
  unfold log_bytes. rewrite !total_app.
  match goal with |- context [DiagSpec.lit_log _ _ ?k (bs "msgstr") _] => set (l := k) end.
  unfold DiagSpec.lit_log. cbn [lt_head]. unfold DiagSpec.head_notes, DiagSpec.string_notes. cbn [ck_body]. fold body. fold line.
  rewrite !map_app, !total_app.
  enough (X : 2 * n * n <= total (fun e => match e with EvLog l => length (lg_text l) | _ => 0 end)
                (List.map (DiagSpec.reported fn l line) (List.concat (List.map DiagSpec.piece_notes body)))) by lia.
  assert (G : forall k, total (fun e => match e with EvLog l => length (lg_text l) | _ => 0 end)
                (List.map (DiagSpec.reported fn l line) (List.concat (List.map DiagSpec.piece_notes (List.repeat (Other (chr 113)) k)))) >= k * length line).
  { induction k as [|k IH]; [cbn; lia|]. cbn [List.repeat List.map List.concat]. rewrite map_app, total_app. cbn [DiagSpec.piece_notes List.map]. rewrite total_cons, total_nil.
    unfold DiagSpec.reported at 1. cbn [log_warning lg_text]. rewrite !app_length. lia. }
  specialize (G n). fold body in G. rewrite LL in G. lia.
Qed.
Example C92_nonvacuous :
  complete wide_file /\ clean (cf_strict ex_cf) (d_charset ex_d) /\
  (let b := doc_text (escapes_doc 30) in let r := po_parse ex_run (bs "f") (stream_of b) ex_d in
   length b = 80 /\ pr_outcome r = Ret tt /\ log_count (pr_trace r) = 30 /\ 1800 < log_bytes (pr_trace r)).
Proof.
  split; [right; exists (removelast wide_file); vm_compute; reflexivity|]. split; [intro H; discriminate H|].
  vm_compute. split; [reflexivity|]. split; [reflexivity|]. split; [reflexivity|]. apply Nat.ltb_lt. vm_compute. reflexivity.
Qed.
Print Assumptions C92_messages_are_bounded.
Print Assumptions C92_log_is_quadratic.
Print Assumptions C91_a_file_is_not_amplified.
Print Assumptions C91_same_charset.
Print Assumptions C91_manager.
