(** Properties C83, C84 and C85: the command-line programs. *)
From Verif.Model Require Import Base Log PluralForms Dictionary IConv Language Stream PoParser Manager Programs.
From Verif.Spec Require Import DictSpec LangSpec ParserSpec PoSpec ManagerSpec ShelfSpec SoundSpec DamageSpec RunSpec CharsetSpec ProgramSpec.
From Verif.Proofs Require Import BaseFacts DictProofs LangProofs ParserFuel ParserMisc DocText ManagerLoad ManagerOwn ManagerGet ManagerStep ManagerContent ManagerProps Charsets CharsetShelf Programs.
From Verif.Properties Require Import LogIConv Parser Document Manager.
From Verif.Properties Require Damage EndToEnd Charsets Run Language ManagerFiles ManagerLife.
Local Open Scope list_scope.
Local Open Scope mon_scope.

(** C83. 'tinygettext_test translate FILE ...' on a file that is any newline-terminated text;
    iconv(3) converts texts as [T] says, also from the charset that the file's header names.
    The program prints the file's converted text for the message, or the message; standard
    error gets the complaints about the file, then a remark if there is no translation. *)
Theorem C83_translate_prints_the_text :
  forall (cf : config) (T : translator) (sy : system) (prog file b : bytes) (sgs : list segment) (ms : list (option bytes)),
  cf_strict cf = false -> serves (cf_iconv cf) T ->
  os_file (sy_os sy) file = Some b -> described b sgs ms ->
  unavailable T utf8 (segs_entries sgs) = None ->
  exists N, forall n, N <= n ->
  let runs args := tinygettext_test (with_fuel cf n) sy (prog :: bs "translate" :: file :: args) Programs.start in
  let says := file_says T utf8 (fun t => t) (segs_entries sgs) in
  let forms := fold_left spec_add (adds says) (fun _ => None) in
  let rule := hd pf_none (plurals says) in
  let complaints := log_text (bs "tinygettext: ") (reading_log cf file sgs ms) in
  (forall msg, let found := said_text says (None, msg) in
     ends_with (runs [msg]) 0 (text_of [bs "TRANSLATION: " ++ triple (or_else found msg)]) (complaints ++ remark found msg)) /\
  (forall c msg, let found := said_text says (Some c, msg) in
     ends_with (runs [c; msg]) 0 (text_of [or_else found msg]) (complaints ++ remark found msg)) /\
  (forall s p arg num, denotes arg num ->
     exists more, ends_with (runs [s; p; arg]) 0 (text_of [spec_translate_plural forms rule (None, s) p num]) (complaints ++ more)) /\
  (forall c s p arg num, denotes arg num ->
     exists more, ends_with (runs [c; s; p; arg]) 0 (text_of [spec_translate_plural forms rule (Some c, s) p num]) (complaints ++ more)).
Proof.
  intros cf T sy prog file b sgs ms St Sv Fi De Un.
  destruct (read_described cf T sy file b sgs ms St Sv Fi De) as [Pr [N H]]. rewrite Un in H. exists N. intros n Hn. specialize (H n Hn).
  intros runs says forms rule complaints. change says with (Programs.said T sgs) in *. fold complaints in H.
  assert (Rm : forall found msg, List.concat (List.map (logged log_default) (match found with Some _ => [] | None => [log_info (bs "Couldn't translate: " ++ msg)] end)) = remark found msg).
  { intros [t|] msg; [reflexivity|]. unfold remark, text_of, logged, deliver. cbn. now rewrite !app_nil_r. }
  split; [|split; [|split]].
  - intros msg found. unfold ends_with, runs, tinygettext_test, modes. change (bytes_eqb (bs "translate") (bs "translate")) with true. cbv iota.
    unfold translate_text, mbind. rewrite H. unfold answer, logs, log_all, out, outln, out, err, mbind, mmod, mlift, mret.
    rewrite (dict_translate T sgs Pr msg). cbn [fst snd]. fold found. rewrite Rm. unfold more, Programs.start. cbn [s_out s_err].
    unfold text_of, triple. cbn [List.map List.concat]. rewrite !app_nil_r, !app_nil_l, <- !app_assoc. reflexivity.
  - intros c msg found. unfold ends_with, runs, tinygettext_test, modes. change (bytes_eqb (bs "translate") (bs "translate")) with true. cbv iota.
    unfold translate_in_context, mbind. rewrite H. unfold answer, logs, log_all, out, outln, out, err, mbind, mmod, mlift, mret.
    rewrite (dict_translate_ctxt T sgs Pr c msg). cbn [fst snd]. fold found. rewrite Rm. unfold more, Programs.start. cbn [s_out s_err].
    unfold text_of. cbn [List.map List.concat]. rewrite !app_nil_r, !app_nil_l. reflexivity.
  - intros s p arg num Ha. pose proof (dict_plural T sgs Pr s p num) as E. destruct (translate_plural (dict T sgs) s p num) as [t l] eqn:El. exists (List.concat (List.map (logged log_default) l)). unfold ends_with, runs, tinygettext_test, modes.
    change (bytes_eqb (bs "translate") (bs "translate")) with true. cbv iota.
    unfold translate_number, mbind, mlift. rewrite (atoi_denotes arg num Ha), H. rewrite El. cbn [fst] in E.
    unfold answer, logs, log_all, out, outln, out, err, mbind, mmod, mlift, mret. cbn [fst snd].
    unfold more, Programs.start. cbn [s_out s_err]. rewrite E.
    unfold text_of. cbn [List.map List.concat]. rewrite !app_nil_r, !app_nil_l. reflexivity.
  - intros c s p arg num Ha. pose proof (dict_ctxt_plural T sgs Pr c s p num) as E. destruct (translate_ctxt_plural (dict T sgs) c s p num) as [t l] eqn:El. exists (List.concat (List.map (logged log_default) l)). unfold ends_with, runs, tinygettext_test, modes.
    change (bytes_eqb (bs "translate") (bs "translate")) with true. cbv iota.
    unfold translate_number_in_context, mbind, mlift. rewrite (atoi_denotes arg num Ha), H. rewrite El. cbn [fst] in E.
    unfold answer, logs, log_all, out, outln, out, err, mbind, mmod, mlift, mret. cbn [fst snd].
    unfold more, Programs.start. cbn [s_out s_err]. rewrite E.
    unfold text_of. cbn [List.map List.concat]. rewrite !app_nil_r, !app_nil_l. reflexivity.
Qed.

(** the arguments with which the program reads [file] *)
Definition reads (args : list bytes) (file : bytes) : Prop :=
  args = [bs "list-msgstrs"; file] \/
  exists rest, args = bs "translate" :: file :: rest /\
    (length rest = 1 \/ length rest = 2 \/ (exists s p a n, rest = [s; p; a] /\ denotes a n) \/
     (exists c s p a n, rest = [c; s; p; a] /\ denotes a n)).
Lemma reads_throws cf sy prog args file s e : reads args file ->
  (forall s, exists e', read_dictionary cf sy file s = (Exn (ExRuntime e), more s [] e')) ->
  exists e', tinygettext_test cf sy (prog :: args) s = (Ret 0, more s (text_of [bs "Exception: " ++ e]) e').
Proof.
  intros R H.
  assert (X : forall (k : dictionary -> P nat) s, exists e', mbind (read_dictionary cf sy file) k s = (Exn (ExRuntime e), more s [] e')).
  { intros k s0. unfold mbind. destruct (H s0) as [e' ->]. eauto. }
  assert (Y : exists e', modes cf sy (prog :: args) s = (Exn (ExRuntime e), more s [] e')).
  { destruct R as [->|(rest & -> & R)].
    - exact (X _ s).
    - destruct R as [L|[L|[(a & p & g & n & -> & D)|(c & a & p & g & n & -> & D)]]].
      + destruct rest as [|x [|? ?]]; try discriminate L. exact (X _ s).
      + destruct rest as [|x [|y [|? ?]]]; try discriminate L. exact (X _ s).
      + change (modes cf sy [prog; bs "translate"; file; a; p; g] s) with (translate_number cf sy file a p g s).
        unfold translate_number, mlift. unfold mbind at 1. rewrite (atoi_denotes _ _ D). exact (X _ s).
      + change (modes cf sy [prog; bs "translate"; file; c; a; p; g] s) with (translate_number_in_context cf sy file c a p g s).
        unfold translate_number_in_context, mlift. unfold mbind at 1. rewrite (atoi_denotes _ _ D). exact (X _ s). }
  destruct Y as [e' Y]. exists e'. unfold tinygettext_test. rewrite Y. cbn [is_std what_of]. unfold outln, out, mbind, mmod, mret.
  unfold more, text_of. cbn [s_out s_err List.map List.concat]. rewrite !app_nil_r. reflexivity.
Qed.

(** If the file cannot be opened, or names a charset from which there is no conversion, the
    program says so - and exits with status 0 all the same. *)
Theorem C83_failures_are_printed :
  forall (cf : config) (T : translator) (sy : system) (prog file : bytes) (args : list bytes),
  cf_strict cf = false -> serves (cf_iconv cf) T -> reads args file ->
  let run n := tinygettext_test (with_fuel cf n) sy (prog :: args) Programs.start in
  (os_file (sy_os sy) file = None ->
   exists N, forall n, N <= n -> exists e, ends_with (run n) 0 (text_of [bs "Exception: Couldn't open " ++ file]) e) /\
  (forall b sgs ms charset, os_file (sy_os sy) file = Some b -> described b sgs ms ->
   unavailable T utf8 (segs_entries sgs) = Some charset ->
   exists N, forall n, N <= n -> exists e, ends_with (run n) 0 (text_of [bs "Exception: " ++ refusal (cf_iconv cf) charset utf8]) e).
Proof.
  intros cf T sy prog file args St Sv R run. split.
  - intro Fi. exists 0. intros n _. destruct (reads_throws (with_fuel cf n) sy prog args file Programs.start (bs "Couldn't open " ++ file) R) as [e E].
    + intro s. exists []. unfold read_dictionary. rewrite Fi. unfold more. rewrite !app_nil_r. now destruct s.
    + exists e. exact E.
  - intros b sgs ms charset Fi De Un. destruct (read_described cf T sy file b sgs ms St Sv Fi De) as [_ [N H]]. rewrite Un in H.
    exists N. intros n Hn. destruct (reads_throws (with_fuel cf n) sy prog args file Programs.start (refusal (cf_iconv cf) charset utf8) R) as [e E].
    + intro s. rewrite (H n Hn). eauto.
    + exists e. exact E.
Qed.

(** 'tinygettext_test list-msgstrs FILE' prints one paragraph for every message that the
    file translates, first those without context. *)
Theorem C83_listing :
  forall (cf : config) (T : translator) (sy : system) (prog file b : bytes) (sgs : list segment) (ms : list (option bytes)),
  cf_strict cf = false -> serves (cf_iconv cf) T ->
  os_file (sy_os sy) file = Some b -> described b sgs ms ->
  unavailable T utf8 (segs_entries sgs) = None ->
  exists N, forall n, N <= n ->
  let says := file_says T utf8 (fun t => t) (segs_entries sgs) in
  let forms := fold_left spec_add (adds says) (fun _ => None) in
  exists (plain : list (bytes * list bytes)) (contexts : list (bytes * bytes * list bytes)),
    NoDup (List.map fst plain) /\ (forall i fs, In (i, fs) plain <-> forms (None, i) = Some fs) /\
    NoDup (List.map fst contexts) /\ (forall c i fs, In (c, i, fs) contexts <-> forms (Some c, i) = Some fs) /\
    ends_with (tinygettext_test (with_fuel cf n) sy [prog; bs "list-msgstrs"; file] Programs.start) 0
      (List.concat (List.map (fun e => text_of ((bs "Msgid: " ++ fst e) :: snd e)) plain) ++
       List.concat (List.map (fun e => text_of ((bs "Msgctxt: " ++ fst (fst e)) :: (bs "Msgid: " ++ snd (fst e)) :: snd e)) contexts))
      (log_text (bs "tinygettext: ") (reading_log cf file sgs ms)).
Proof.
  intros cf T sy prog file b sgs ms St Sv Fi De Un.
  destruct (read_described cf T sy file b sgs ms St Sv Fi De) as [Pr [N H]]. rewrite Un in H. exists N. intros n Hn. specialize (H n Hn).
  intros says forms. change says with (Programs.said T sgs) in *. set (D := dict T sgs) in *.
  pose proof (dict_ok T sgs : dict_wf D) as W. exists (foreach D), (foreach_ctxt D).
  split; [apply W|]. split. { intros i fs. rewrite (foreach_lookup D i fs W). unfold forms. now rewrite <- (dict_lookup T sgs). }
  split; [now apply foreach_ctxt_nodup|]. split. { intros c i fs. rewrite (foreach_ctxt_lookup D c i fs W). unfold forms. now rewrite <- (dict_lookup T sgs). }
  assert (Ea : forall A (f : A -> P unit) (g : A -> bytes), (forall x s, f x s = (Ret tt, more s (g x) [])) ->
     forall l s, each f l s = (Ret tt, more s (List.concat (List.map g l)) [])).
  { intros A f g Hf l. induction l as [|x l IH]; intro s; cbn [each List.map List.concat].
    - unfold mret, more. rewrite !app_nil_r. now destruct s.
    - unfold mbind. rewrite Hf, IH, more_more. reflexivity. }
  unfold ends_with. change (tinygettext_test _ _ _) with (fun s => match list_msgstrs (with_fuel cf n) sy file s with
             | (Exn e, s') => if is_std e then (outln (bs "Exception: " ++ what_of sy e);; mret 0) s' else (Exn e, s')
             | x => x
             end). cbv beta.
  assert (L : list_msgstrs (with_fuel cf n) sy file Programs.start = (Ret 0, more Programs.start
      (List.concat (List.map (fun e => text_of ((bs "Msgid: " ++ fst e) :: snd e)) (foreach D)) ++
       List.concat (List.map (fun e => text_of ((bs "Msgctxt: " ++ fst (fst e)) :: (bs "Msgid: " ++ snd (fst e)) :: snd e)) (foreach_ctxt D)))
      (log_text (bs "tinygettext: ") (reading_log cf file sgs ms)))).
  { unfold list_msgstrs. unfold mbind at 1. rewrite H. fold D. unfold mbind at 1.
    rewrite (Ea _ print_msg (fun e => text_of ((bs "Msgid: " ++ fst e) :: snd e))).
    - unfold mbind at 1. rewrite (Ea _ print_msg_ctxt (fun e => text_of ((bs "Msgctxt: " ++ fst (fst e)) :: (bs "Msgid: " ++ snd (fst e)) :: snd e))).
      + unfold mret. rewrite !more_more, !app_nil_r. reflexivity.
      + intros [[c i] fs] s. unfold print_msg_ctxt, print_strings, outln, out, mbind, mmod, more, text_of. cbn [fst snd s_out s_err List.map List.concat]. rewrite !app_nil_r, <- !app_assoc. reflexivity.
    - intros [i fs] s. unfold print_msg, print_strings, outln, out, mbind, mmod, more, text_of. cbn [fst snd s_out s_err List.map List.concat]. rewrite !app_nil_r, <- !app_assoc. reflexivity. }
  rewrite L. reflexivity.
Qed.

(** C84. 'po_parser_test FILE...': if each file can be read to a final newline or not at all,
    every one is checked, whatever is wrong with the others; the output is that of the files
    one after the other, and the exit status is 0. *)
Theorem C84_every_file_is_checked :
  forall (cf : config) (sy : system) (prog : bytes) (files : list bytes) (reports : list (bytes * bytes)),
  cf_strict cf = false -> files <> [] ->
  Forall2 (fun f r => report cf sy prog f (fst r) (snd r)) files reports ->
  exists N, forall n, N <= n ->
  ends_with (po_parser_test (with_fuel cf n) sy (prog :: files) Programs.start) 0
    (List.concat (List.map fst reports)) (List.concat (List.map snd reports)).
Proof.
  intros cf sy prog files reports St NE H.
  assert (X : exists N, forall n, N <= n -> forall s, each (check_file (with_fuel cf n) sy prog) files s =
     (Ret tt, more s (List.concat (List.map fst reports)) (List.concat (List.map snd reports)))).
  { clear NE. induction H as [|f r files reports Hf H [N IH]].
    - exists 0. intros n _ s. cbn [each List.map List.concat]. unfold mret, more. rewrite !app_nil_r. now destruct s.
    - assert (Y : exists N, forall n, N <= n -> forall s, check_file (with_fuel cf n) sy prog f s = (Ret tt, more s (fst r) (snd r))).
      { destruct r as [o e]. cbn [fst snd] in *. destruct Hf as [Fi|b sgs ms Fi De E|b sgs ms w Fi De E].
        - exists 0. intros n _ s. unfold check_file. rewrite Fi. unfold errln, err, mmod, more, text_of. cbn [List.map List.concat]. rewrite !app_nil_r. reflexivity.
        - destruct (parse_described cf f b sgs ms St De) as (r & (_ & N1 & HN) & X1 & X2 & X3 & X4 & X5). rewrite E in X1.
          exists N1. intros n Hn s. unfold check_file. rewrite Fi, (HN n Hn). cbv zeta. rewrite X1. unfold log_all, err, mbind, mmod, mlift.
          rewrite logged_mine, X5. unfold more. rewrite app_nil_r. reflexivity.
        - destruct (parse_described cf f b sgs ms St De) as (r & (_ & N1 & HN) & X1 & X2 & X3 & X4 & X5). rewrite E in X1.
          exists N1. intros n Hn s. unfold check_file. rewrite Fi, (HN n Hn). cbv zeta. rewrite X1. unfold log_all, outln, out, err, mbind, mmod, mlift.
          rewrite logged_mine, X5. unfold more, text_of. cbn [s_out s_err List.map List.concat]. rewrite !app_nil_r. reflexivity. }
      destruct Y as [N2 Y]. exists (Nat.max N N2). intros n Hn s. cbn [each List.map List.concat]. unfold mbind. rewrite Y, IH, more_more by lia. reflexivity. }
  destruct X as [N X]. exists N. intros n Hn. unfold ends_with, po_parser_test. destruct files as [|f files]; [contradiction|].
  unfold mbind, mret. rewrite (X n Hn). reflexivity.
Qed.

(** Every file that is missing or complete has exactly one report, provided the conversions
    do not fail otherwise than as iconv(3) may: they serve some translator. *)
Theorem C84_every_file_has_one_report :
  forall (cf : config) (T : translator) (sy : system) (prog file : bytes),
  serves (cf_iconv cf) T ->
  (forall b, os_file (sy_os sy) file = Some b -> complete b) ->
  exists! r : bytes * bytes, report cf sy prog file (fst r) (snd r).
Proof.
  intros cf T sy prog file Sv C. destruct (os_file (sy_os sy) file) as [b|] eqn:Fi.
  - destruct (Run.C73_every_file_is_described b (C b eq_refl)) as ([sgs ms] & (S1 & S2 & S3) & U). cbn [fst snd] in *.
    assert (De : described b sgs ms) by (split; [exact (C b eq_refl)|auto]).
    assert (U' : forall sgs' ms', described b sgs' ms' -> sgs' = sgs /\ ms' = ms).
    { intros sgs' ms' (_ & D1 & D2 & D3). specialize (U (sgs', ms') (conj D1 (conj D2 D3))). injection U. auto. }
    destruct (segs_end (cf_iconv cf) T file (cf_pedantic cf) (cf_ndebug cf) sgs ms (new_dictionary utf8) Sv S3) as [E _].
    destruct (unavailable _ _ _) as [c|].
    + exists (text_of [file ++ bs ": exception: " ++ refusal (cf_iconv cf) c (d_charset (new_dictionary utf8))], log_text [] (reading_log cf file sgs ms)). split.
      * exact (report_failed cf sy prog file b sgs ms _ Fi De E).
      * intros [o e] R. cbn [fst snd] in R. inversion R as [F|b' sgs' ms' F D X|b' sgs' ms' w F D X]; subst; rewrite Fi in F; try discriminate F; injection F as <-;
          destruct (U' _ _ D) as [-> ->]; rewrite E in X; [discriminate X|injection X as <-]; reflexivity.
    + exists ([], log_text [] (reading_log cf file sgs ms)). split.
      * exact (report_read cf sy prog file b sgs ms Fi De E).
      * intros [o e] R. cbn [fst snd] in R. inversion R as [F|b' sgs' ms' F D X|b' sgs' ms' w F D X]; subst; rewrite Fi in F; try discriminate F; injection F as <-;
          destruct (U' _ _ D) as [-> ->]; rewrite E in X; [reflexivity|discriminate X].
  - eexists (_, _). split; [apply report_missing, Fi|]. intros [o e] R. cbn [fst snd] in R. inversion R; subst; congruence || reflexivity.
Qed.

(** C85. 'tinygettext_test language NAME' *)
Theorem C85_language :
  forall (cf : config) (sy : system) (prog name : bytes) (l : language),
  from_name (cf_strict cf) (cf_ndebug cf) name = Ret l ->
  ends_with (tinygettext_test cf sy [prog; bs "language"; name] Programs.start) 0
    (text_of (match l with Some _ => about l | None => [bs "not found"] end)) [].
Proof.
  intros cf sy prog name l E. unfold ends_with, tinygettext_test.
  change (modes cf sy [prog; bs "language"; name]) with (language_mode cf name). unfold language_mode, mlift. unfold mbind at 1. rewrite E.
  destruct l as [x|]; [|reflexivity]. cbn [lang_defined]. unfold print_language, outln, out, mbind, mmod, mret, Programs.start. cbn [s_out s_err].
  unfold about, text_of. cbn [List.map List.concat]. rewrite !app_nil_l, !app_nil_r, <- !app_assoc. reflexivity.
Qed.

Lemma text_of_app a b : text_of (a ++ b) = text_of a ++ text_of b.
Proof. unfold text_of. now rewrite map_app, concat_app. Qed.
Lemma text_of_one l : text_of [l] = l ++ [c_lf].
Proof. unfold text_of. cbn [List.map List.concat]. apply app_nil_r. Qed.
Lemma added cf fs dir : exists m, mstep cf fs (OpAddDirectory dir false) (new_manager utf8) = (Ret OutUnit, m) /\
  m_path m = [dir] /\ m_lang m = None /\ m_cur m = None /\ m_tr m = [] /\ m_empty m = new_dictionary utf8 /\ m_cache m = [] /\ own (cf_ndebug cf) m.
Proof. eexists. split; [reflexivity|]. repeat (split; [reflexivity|]). exact (step_own cf fs (OpAddDirectory dir false) _ (own_new cf utf8) Logic.I). Qed.
Lemma dies cf m s : own (cf_ndebug cf) m -> manager_dies m s = (Ret tt, s).
Proof. intro O. destruct (destroy_ok _ m O) as (m' & E & _). unfold manager_dies, mlift. now rewrite E. Qed.
Lemma on_step cf fs op m {A} (f : M manager A) (g : A -> mout) s : mstep cf fs op m = mmap g f m ->
  forall out m', mstep cf fs op m = (Ret out, m') -> m_tr m' = m_tr m ->
  exists a, g a = out /\ on_manager f m s = (Ret (a, m'), s).
Proof.
  intros E out m' H Tr. rewrite H in E. unfold mmap, mbind, mret in E. unfold on_manager.
  destruct (f m) as [[a|e|u| |] m1] eqn:F; try discriminate E. injection E as -> ->. exists a. split; [reflexivity|].
  unfold logs, log_all, err, mbind, mmod, mret. cbn [fst snd]. rewrite Tr, skipn_all. cbn. rewrite app_nil_r. now destruct s.
Qed.

(** 'tinygettext_test language-dir DIR' describes every language of a .po file in DIR, once,
    in ascending order. *)
Theorem C85_language_dir :
  forall (cf : config) (sy : system) (prog dir : bytes) (files : list bytes),
  os_dir (sy_os sy) dir = Some files -> (forall f, In f files -> real_string f) ->
  exists ls : list language, NoDup ls /\
    (forall i j a b, i < j -> nth_error ls i = Some a -> nth_error ls j = Some b -> lang_ltb a b = true) /\
    (forall l, In l ls <-> exists stem, In (stem ++ bs ".po") files /\ from_env (cf_ndebug cf) stem = Ret l) /\
    ends_with (tinygettext_test cf sy [prog; bs "language-dir"; dir] Programs.start) 0
      (text_of ((bs "Number of languages: " ++ dec_Z (Z.of_nat (length ls))) :: List.concat (List.map (fun l => about l ++ [[]]) ls))) [].
Proof.
  intros cf sy prog dir files D R. set (fs := unix_file_system (sy_os sy)).
  destruct (added cf fs dir) as (m & A1 & A2 & A3 & A4 & A5 & A6 & A7 & A8).
  destruct (ManagerFiles.C49_languages_of_the_files cf fs m) as (ls & L1 & L2 & L3 & L4).
  { intros p Hp. rewrite A2 in Hp. destruct Hp as [<-|[]]. exists files. split; [|exact R]. unfold fs. cbn [unix_file_system fs_dir]. now rewrite D. }
  exists ls. split; [exact L3|]. split; [exact L2|]. split.
  { intro l. rewrite L4. split.
    - intros (p & files' & stem & Hp & Hd & Hi & He). rewrite A2 in Hp. destruct Hp as [<-|[]].
      unfold fs in Hd. cbn [unix_file_system fs_dir] in Hd. rewrite D in Hd. injection Hd as <-. eauto.
    - intros (stem & Hi & He). exists dir, files, stem. split; [rewrite A2; now left|]. split; [|auto]. unfold fs. cbn [unix_file_system fs_dir]. now rewrite D. }
  unfold ends_with, tinygettext_test. change (modes cf sy [prog; bs "language-dir"; dir]) with (language_dir cf sy dir).
  assert (E : language_dir cf sy dir Programs.start = (Ret 0, more Programs.start (text_of ((bs "Number of languages: " ++ dec_N (N.of_nat (length ls))) :: List.concat (List.map (fun l => about l ++ [[]]) ls))) [])).
  { unfold language_dir.
    destruct (on_step cf fs (OpAddDirectory dir false) (new_manager utf8) (add_directory dir false) (fun _ => OutUnit) Programs.start eq_refl _ _ A1 A5) as ([] & _ & X1).
    unfold mbind at 1. rewrite X1. cbn [snd].
    destruct (on_step cf fs OpGetLanguages m (get_languages cf fs) OutLangs Programs.start eq_refl _ _ L1 eq_refl) as (ls' & X2 & X3). injection X2 as ->.
    unfold mbind at 1. unfold Programs.fs. fold fs. rewrite X3. cbn [fst snd].
    assert (Ea : forall l s, each (fun l => print_language l;; outln []) l s = (Ret tt, more s (text_of (List.concat (List.map (fun l => about l ++ [[]]) l))) [])).
    { induction l as [|x l IH]; intro s; cbn [each List.map List.concat].
      - unfold mret, more, text_of. cbn. rewrite !app_nil_r. now destruct s.
      - unfold mbind at 1. assert (Px : (print_language x;; outln []) s = (Ret tt, more s (text_of (about x ++ [[]])) [])).
        { unfold print_language, outln, out, mbind, mmod, more. cbn [s_out s_err]. unfold about, text_of. cbn [List.map List.concat app].
          rewrite !app_nil_r. cbn [s_out]. repeat (rewrite <- app_assoc; cbn [app]). reflexivity. }
        rewrite Px, IH, more_more, <- text_of_app. reflexivity. }
    unfold outln at 1, out. unfold mbind at 1. unfold mmod. unfold mbind at 1. rewrite Ea. unfold mbind, mret. rewrite (dies cf m _ A8).
    unfold more, Programs.start, text_of. cbn [s_out s_err List.map List.concat]. reflexivity. }
  rewrite E. unfold dec_Z. destruct (Z.ltb_spec (Z.of_nat (length ls)) 0); [lia|]. replace (Z.to_N (Z.of_nat (length ls))) with (N.of_nat (length ls)) by lia. reflexivity.
Qed.

Lemma headed cf sy dir msg m s :
  directory_report cf sy dir msg m s =
  (rm <- on_manager (get_dictionary cf (Programs.fs sy)) m;;
    match deref (snd rm) (fst rm) with
    | None => mfail (Ub UbPointer)
    | Some d =>
        t <- answer (translate 3 (m_heap (snd rm)) d msg);;
        outln (t ++ bs "'");;
        manager_dies (snd rm);;
        mret 0
    end) (more s (text_of (heading dir msg (m_lang m)) ++ bs "Translation: '") []).
Proof.
  unfold directory_report. unfold outln at 1 2 3. unfold out. unfold mbind at 1 2 3 4. unfold mmod at 1 2 3 4. cbv zeta. cbn [s_out s_err].
  match goal with |- ?f ?x = ?f ?y => replace x with y; [reflexivity|] end.
  unfold more, heading, text_of. cbn [List.map List.concat]. cbv zeta. rewrite !app_nil_r. repeat rewrite <- app_assoc. reflexivity.
Qed.

(** 'tinygettext_test directory DIR MESSAGE': no language is set, the message is not translated. *)
Theorem C85_directory_without_language :
  forall (cf : config) (sy : system) (prog dir msg : bytes),
  ends_with (tinygettext_test cf sy [prog; bs "directory"; dir; msg] Programs.start) 0
    (text_of (heading dir msg None ++ [bs "Translation: '" ++ msg ++ bs "'"])) (text_of [bs "tinygettext: Couldn't translate: " ++ msg]).
Proof.
  intros cf sy prog dir msg. set (fs := unix_file_system (sy_os sy)). destruct (added cf fs dir) as (m & A1 & A2 & A3 & A4 & A5 & A6 & A7 & A8).
  destruct (on_step cf fs (OpAddDirectory dir false) (new_manager utf8) (add_directory dir false) (fun _ => OutUnit) Programs.start eq_refl _ _ A1 A5) as ([] & _ & X1).
  unfold ends_with, tinygettext_test. change (modes cf sy [prog; bs "directory"; dir; msg]) with (directory_mode cf sy dir msg None).
  unfold directory_mode. unfold mbind at 1. rewrite X1. cbn [snd]. rewrite (headed cf sy dir msg m), A3.
  set (s := more _ _ _).
  assert (G : mstep cf fs OpGetDictionary m = (Ret (OutRef RefEmpty), m)) by (rewrite (do_get cf fs m (own_lang _ _ A8)), A3, A4; reflexivity).
  destruct (on_step cf fs OpGetDictionary m (get_dictionary cf fs) OutRef s eq_refl _ _ G eq_refl) as (r & X2 & X3). injection X2 as ->.
  unfold mbind at 1. unfold Programs.fs. fold fs. rewrite X3. cbn [fst snd deref]. rewrite A6.
  unfold answer, logs, log_all, outln, out, err, mbind, mmod, mlift, mret. cbn [fst snd translate translate_in new_dictionary d_entries assoc d_has_fallback].
  rewrite (dies cf m _ A8). unfold s, more, Programs.start. cbn [s_out s_err]. rewrite text_of_app. unfold text_of at 3 4. cbn [List.map List.concat].
  rewrite !app_nil_l, !app_nil_r. repeat rewrite <- app_assoc. unfold logged, deliver. cbn. rewrite !app_nil_r. reflexivity.
Qed.

(** ... with the name of an unknown language: the only run with exit status 1. *)
Theorem C85_unknown_language :
  forall (cf : config) (sy : system) (prog dir msg name : bytes),
  from_name (cf_strict cf) (cf_ndebug cf) name = Ret None ->
  ends_with (tinygettext_test cf sy [prog; bs "directory"; dir; msg; name] Programs.start) 1
    (text_of [bs "Unknown language: " ++ name]) [].
Proof.
  intros cf sy prog dir msg name E. set (fs := unix_file_system (sy_os sy)). destruct (added cf fs dir) as (m & A1 & A2 & A3 & A4 & A5 & A6 & A7 & A8).
  destruct (on_step cf fs (OpAddDirectory dir false) (new_manager utf8) (add_directory dir false) (fun _ => OutUnit) Programs.start eq_refl _ _ A1 A5) as ([] & _ & X1).
  unfold ends_with, tinygettext_test. change (modes cf sy [prog; bs "directory"; dir; msg; name]) with (directory_mode cf sy dir msg (Some name)).
  unfold directory_mode. unfold mbind at 1. rewrite X1. unfold mlift. unfold mbind at 1. rewrite E. cbn [lang_defined].
  unfold outln, out, mbind, mmod, mret, Programs.start, text_of. cbn [s_out s_err List.map List.concat]. rewrite app_nil_r. reflexivity.
Qed.

Lemma set_up cf fs dir x : let l := Some x in known l -> exists m0 m,
  mstep cf fs (OpAddDirectory dir false) (new_manager utf8) = (Ret OutUnit, m0) /\
  mstep cf fs (OpSetLanguage l) m0 = (Ret OutUnit, m) /\
  session cf fs (new_manager utf8) [OpAddDirectory dir false; OpSetLanguage l] m /\
  m_tr m0 = [] /\ m_tr m = [] /\ m_lang m = l /\ m_cur m = None /\ m_path m = [dir] /\ own (cf_ndebug cf) m.
Proof.
  intros l K. destruct (added cf fs dir) as (m0 & A1 & A2 & A3 & A4 & A5 & A6 & A7 & A8). exists m0, (upd_lang m0 l None).
  assert (S : mstep cf fs (OpSetLanguage l) m0 = (Ret OutUnit, upd_lang m0 l None)) by (rewrite do_set_language, A3; reflexivity).
  split; [exact A1|]. split; [exact S|]. split.
  { eapply session_cons; [exact A1|]. eapply session_cons; [exact S|]. constructor. }
  split; [exact A5|]. split; [exact A5|]. split; [reflexivity|]. split; [reflexivity|]. split; [exact A2|].
  pose proof (step_own cf fs (OpSetLanguage l) m0 A8 K) as O. now rewrite S in O.
Qed.
Lemma directory_set cf sy dir msg name x m0 m : from_name (cf_strict cf) (cf_ndebug cf) name = Ret (Some x) ->
  let fs := unix_file_system (sy_os sy) in
  mstep cf fs (OpAddDirectory dir false) (new_manager utf8) = (Ret OutUnit, m0) -> m_tr m0 = [] ->
  mstep cf fs (OpSetLanguage (Some x)) m0 = (Ret OutUnit, m) -> m_tr m = [] ->
  directory_mode cf sy dir msg (Some name) Programs.start = directory_report cf sy dir msg m Programs.start.
Proof.
  intros E fs A1 T1 A2 T2. unfold directory_mode.
  destruct (on_step cf fs (OpAddDirectory dir false) (new_manager utf8) (add_directory dir false) (fun _ => OutUnit) Programs.start eq_refl _ _ A1 T1) as ([] & _ & X1).
  unfold mbind at 1. rewrite X1. unfold mlift. unfold mbind at 1. rewrite E. cbn [lang_defined snd].
  destruct (on_step cf fs (OpSetLanguage (Some x)) m0 (set_language (Some x)) (fun _ => OutUnit) Programs.start eq_refl _ _ A2 (eq_trans T2 (eq_sym T1))) as ([] & _ & X2).
  unfold mbind at 1. rewrite X2. reflexivity.
Qed.

(** ... with the name of a known language: the text of the file for that language, or of the
    one for the language without its country, converted to UTF-8. *)
Theorem C85_directory :
  forall (cf : config) (T : translator) (sy : system) (prog dir msg name : bytes) (x : language_spec) (own base : list dict_call),
  let l := Some x in
  cf_strict cf = false -> serves (cf_iconv cf) T ->
  from_name (cf_strict cf) (cf_ndebug cf) name = Ret l ->
  says cf T (sy_os sy) utf8 l dir own ->
  (if is_nil (get_country l) then base = []
   else exists b, from_spec (cf_ndebug cf) (get_language l) [] [] = Ret b /\ says cf T (sy_os sy) utf8 b dir base) ->
  exists N, forall n, N <= n -> exists e,
  ends_with (tinygettext_test (with_fuel cf n) sy [prog; bs "directory"; dir; msg; name] Programs.start) 0
    (text_of (heading dir msg l ++
       [bs "Translation: '" ++ or_else (said_text own (None, msg)) (or_else (said_text base (None, msg)) msg) ++ bs "'"])) e.
Proof.
  intros cf T sy prog dir msg name x own base l St Sv E Ho Hb.
  assert (K : known l). { unfold from_name in E. destruct (resolve_language_alias _ name); try discriminate E. exact (from_env_known _ _ _ E). }
  subst l.
  destruct (Charsets.C82_answers_are_the_converted_texts cf T (sy_os sy) utf8 [dir] (Some x) (fun _ => own) (fun _ => base) St Sv K ltac:(discriminate)) as [N H].
  { intros p [<-|[]]. exact Ho. }
  { destruct (is_nil (get_country (Some x))); [intros _; exact Hb|]. destruct Hb as (b & B1 & B2). exists b. split; [exact B1|]. intros p [<-|[]]. exact B2. }
  exists N. intros n Hn. cbv zeta in H. set (run := with_fuel cf n). set (fs := unix_file_system (sy_os sy)) in *.
  destruct (set_up run fs dir x K) as (m0 & m & A1 & A2 & A3 & T1 & T2 & Lm & Cu & Pa & O).
  destruct (H n Hn utf8 [OpAddDirectory dir false; OpSetLanguage (Some x)] m) as (m' & d & R & Tr & _).
  { constructor; [exact Logic.I|]. constructor; [exact K|]. constructor. } { exact A3. } { reflexivity. } { reflexivity. }
  clear H. specialize (Tr 1 msg). fold run fs in R. apply (returns_get run fs m (Some x) m' d K) in R as (p & G & Hd).
  assert (Q : mstep run fs OpGetDictionary m = (Ret (OutRef (RefHeap p)), upd_lang m' (m_lang m') (Some p))).
  { rewrite (do_get run fs m (own_lang _ _ O)), Cu, Lm. cbn [is_none]. rewrite G. reflexivity. }
  pose proof (step_own run fs OpGetDictionary m O Logic.I) as O'. rewrite Q in O'. cbn [snd] in O'.
  unfold ends_with, tinygettext_test. change (modes run sy [prog; bs "directory"; dir; msg; name]) with (directory_mode run sy dir msg (Some name)).
  rewrite (directory_set run sy dir msg name x m0 m E A1 T1 A2 T2), headed, Lm.
  unfold Programs.fs. fold fs. set (s := more _ _ _).
  assert (G' : get_dictionary run fs m = (Ret (RefHeap p), upd_lang m' (m_lang m') (Some p))).
  { cbn [mstep] in Q. unfold mmap, mbind, mret in Q. destruct (get_dictionary run fs m) as [[r|?|?| |] m1]; try discriminate Q. injection Q as -> ->. reflexivity. }
  unfold on_manager at 1. rewrite G'. cbn [fst snd].
  unfold answer, logs, log_all, outln, out, err, mbind, mmod, mlift, mret. cbn [fst snd deref upd_lang m_heap]. rewrite Hd.
  unfold first_said, first_some in Tr. rewrite Tr. rewrite (dies run _ _ O'). eexists. unfold s, more, Programs.start. cbn [s_out s_err].
  rewrite text_of_app, text_of_one. repeat rewrite <- app_assoc.
  destruct (said_text own (None, msg)), (said_text base (None, msg)); reflexivity.
Qed.

(** A directory that cannot be listed: an exception in the middle of the line. *)
Theorem C85_missing_directory :
  forall (cf : config) (sy : system) (prog dir msg name : bytes) (x : language_spec),
  os_dir (sy_os sy) dir = None ->
  ends_with (tinygettext_test cf sy [prog; bs "language-dir"; dir] Programs.start) 0
    (text_of [bs "Exception: " ++ sy_what sy (ExFilesystem dir)]) [] /\
  (from_name (cf_strict cf) (cf_ndebug cf) name = Ret (Some x) ->
   ends_with (tinygettext_test cf sy [prog; bs "directory"; dir; msg; name] Programs.start) 0
    (text_of (heading dir msg (Some x) ++ [bs "Translation: 'Exception: " ++ sy_what sy (ExFilesystem dir)])) []).
Proof.
  intros cf sy prog dir msg name x D. set (fs := unix_file_system (sy_os sy)).
  assert (Fd : fs_dir fs dir = Exn (ExFilesystem dir)) by (unfold fs; cbn [unix_file_system fs_dir]; now rewrite D).
  split.
  - destruct (added cf fs dir) as (m & A1 & A2 & A3 & A4 & A5 & A6 & A7 & A8).
    destruct (on_step cf fs (OpAddDirectory dir false) (new_manager utf8) (add_directory dir false) (fun _ => OutUnit) Programs.start eq_refl _ _ A1 A5) as ([] & _ & X1).
    unfold ends_with, tinygettext_test. change (modes cf sy [prog; bs "language-dir"; dir]) with (language_dir cf sy dir).
    unfold language_dir. unfold mbind at 1. rewrite X1. cbn [snd]. unfold Programs.fs. fold fs.
    assert (G : get_languages cf fs m = (Exn (ExFilesystem dir), m)).
    { unfold get_languages, mbind, mget, mlift. rewrite A2. cbn [langs_of_dirs]. now rewrite Fd. }
    unfold on_manager at 1. rewrite G. cbn [fst snd]. rewrite skipn_all. unfold logs, log_all, err, mbind, mmod, mfail.
    rewrite (dies cf m _ A8). cbn [is_std what_of]. unfold outln, out, mmod, mret, Programs.start, text_of. cbn [s_out s_err List.map List.concat stmts].
    rewrite !app_nil_r. reflexivity.
  - intro E.
    assert (K : known (Some x)). { unfold from_name in E. destruct (resolve_language_alias _ name); try discriminate E. exact (from_env_known _ _ _ E). }
    destruct (set_up cf fs dir x K) as (m0 & m & A1 & A2 & A3 & T1 & T2 & Lm & Cu & Pa & O).
    assert (L : fst (mstep cf fs OpGetDictionary m) = Exn (ExFilesystem dir) /\ m_tr (snd (mstep cf fs OpGetDictionary m)) = []).
    { rewrite (do_get cf fs m (own_lang _ _ O)), Cu, Lm. cbn [is_none].
      assert (C : m_cache m = []). { clear -A1 A2. vm_compute in A1. injection A1 as <-. rewrite do_set_language in A2. cbn in A2. injection A2 as <-. reflexivity. }
      unfold get_state, leaf_outcome, leaf_state. rewrite C. cbn [cache_find].
      assert (As : asserts cf (Some x) = false) by (unfold asserts; cbn [is_none]; apply andb_false_r). rewrite As, Pa. cbn [rev app pload]. unfold pdir. rewrite Fd.
      assert (Lo : m_tr (loaded cf fs m (Some x)) = []).
      { unfold loaded, put. cbn [upd_tr m_tr upd_heap]. rewrite Pa. cbn [rev app pload]. unfold pdir. rewrite Fd. cbn [fst snd alloc m_tr]. rewrite T2. reflexivity. }
      destruct (is_nil (get_country (Some x))); cbn [omap fst snd]; split; (reflexivity || exact Lo). }
    destruct L as [L1 L2]. pose proof (step_own cf fs OpGetDictionary m O Logic.I) as O'.
    unfold ends_with, tinygettext_test. change (modes cf sy [prog; bs "directory"; dir; msg; name]) with (directory_mode cf sy dir msg (Some name)).
    rewrite (directory_set cf sy dir msg name x m0 m E A1 T1 A2 T2), headed, Lm. unfold Programs.fs. fold fs. set (s := more _ _ _).
    assert (G' : exists m1, get_dictionary cf fs m = (Exn (ExFilesystem dir), m1) /\ m_tr m1 = [] /\ own (cf_ndebug cf) m1).
    { cbn [mstep] in L1, L2, O'. unfold mmap, mbind, mret in L1, L2, O'. destruct (get_dictionary cf fs m) as [[r|e|?| |] m1]; try discriminate L1.
      cbn [fst snd] in *. injection L1 as ->. eauto. }
    destruct G' as (m1 & G' & T3 & O1). unfold on_manager at 1. rewrite G'. cbn [fst snd]. rewrite T2, T3. unfold logs, log_all, err, mbind, mmod, mfail.
    rewrite (dies cf m1 _ O1). cbn [is_std what_of]. unfold outln, out, mmod, mret, s, more, Programs.start. cbn [s_out s_err].
    rewrite text_of_app, text_of_one. cbn [length skipn]. repeat rewrite <- app_assoc. reflexivity.
Qed.

(** All other command lines print the usage, with exit status 0. *)
Theorem C85_usage :
  forall (cf : config) (sy : system) (prog : bytes) (args : list bytes),
  ~ understood args ->
  ends_with (tinygettext_test cf sy (prog :: args) Programs.start) 0 (text_of (usage prog)) [].
Proof.
  intros cf sy prog args H.
  assert (U : (print_usage (prog :: args);; mret 0) Programs.start = (Ret 0, {| s_out := text_of (usage prog); s_err := [] |})).
  { unfold print_usage, outln, out, mbind, mmod, mret, Programs.start, usage, text_of. cbn [s_out s_err List.map List.concat app].
    rewrite ?app_nil_r. repeat rewrite <- app_assoc. reflexivity. }
  assert (X : modes cf sy (prog :: args) Programs.start = (Ret 0, {| s_out := text_of (usage prog); s_err := [] |})).
  { unfold modes. destruct args as [|mode [|a [|b [|c [|d [|e [|f args]]]]]]]; try exact U;
      repeat match goal with |- context [bytes_eqb mode ?x] => destruct (bytes_eqb_spec mode x) as [->|_]; [destruct H; constructor|] end; exact U. }
  unfold ends_with, tinygettext_test. rewrite X. reflexivity.
Qed.

Lemma understood_dec args : understood args \/ ~ understood args.
Proof.
  destruct args as [|mode [|a [|b [|c [|d [|e [|f args]]]]]]]; try (right; intro H; inversion H; fail).
  - destruct (bytes_eqb_spec mode (bs "language-dir")) as [->|N1]; [left; constructor|].
    destruct (bytes_eqb_spec mode (bs "language")) as [->|N2]; [left; constructor|].
    destruct (bytes_eqb_spec mode (bs "list-msgstrs")) as [->|N3]; [left; constructor|]. right. intro H. inversion H; subst; solve [now apply N1|now apply N2|now apply N3].
  - destruct (bytes_eqb_spec mode (bs "translate")) as [->|N1]; [left; constructor|].
    destruct (bytes_eqb_spec mode (bs "directory")) as [->|N2]; [left; constructor|]. right. intro H. inversion H; subst; solve [now apply N1|now apply N2|now apply N3].
  - destruct (bytes_eqb_spec mode (bs "translate")) as [->|N1]; [left; constructor|].
    destruct (bytes_eqb_spec mode (bs "directory")) as [->|N2]; [left; constructor|]. right. intro H. inversion H; subst; solve [now apply N1|now apply N2|now apply N3].
  - destruct (bytes_eqb_spec mode (bs "translate")) as [->|N1]; [left; constructor|]. right. intro H. inversion H; subst; solve [now apply N1|now apply N2|now apply N3].
  - destruct (bytes_eqb_spec mode (bs "translate")) as [->|N1]; [left; constructor|]. right. intro H. inversion H; subst; solve [now apply N1|now apply N2|now apply N3].
Qed.
(** Every argument that fits an int is a number: its own numeral, and no other. *)
Theorem C83_numbers :
  (forall n, (-2147483648 <= n <= 2147483647)%Z -> denotes (dec_Z n) n) /\
  (forall arg n n', denotes arg n -> denotes arg n' -> n = n').
Proof.
  split; [exact numeral_denotes|]. intros arg n n' H H'. apply atoi_denotes in H, H'. congruence.
Qed.

(** A NUM that does not fit an int is undefined behaviour, before anything is read or printed. *)
Theorem C83_number_out_of_range :
  forall (cf : config) (sy : system) (prog file s p c num : bytes),
  (forall n, ~ denotes num n) ->
  tinygettext_test cf sy [prog; bs "translate"; file; s; p; num] Programs.start = (Ub UbRange, Programs.start) /\
  tinygettext_test cf sy [prog; bs "translate"; file; c; s; p; num] Programs.start = (Ub UbRange, Programs.start).
Proof.
  intros cf sy prog file s p c num H.
  assert (E : atoi num = Ub UbRange).
  { destruct (atoi num) as [n|e|u| |] eqn:A; [destruct (H n); now apply denotes_atoi| | | |]; unfold atoi in A; destruct (_ && _)%bool in A; congruence. }
  split; unfold tinygettext_test.
  - change (modes cf sy _ Programs.start) with (translate_number cf sy file s p num Programs.start). unfold translate_number, mlift. unfold mbind at 1. now rewrite E.
  - change (modes cf sy _ Programs.start) with (translate_number_in_context cf sy file c s p num Programs.start). unfold translate_number_in_context, mlift. unfold mbind at 1. now rewrite E.
Qed.

(** Without files po_parser_test prints how to call it. *)
Theorem C84_without_files :
  forall (cf : config) (sy : system) (prog : bytes),
  ends_with (po_parser_test cf sy [prog] Programs.start) 0 (text_of [prog ++ bs " FILENAME..."]) [].
Proof. intros cf sy prog. unfold ends_with, text_of. cbn [List.map List.concat]. rewrite app_nil_r. reflexivity. Qed.

(** Every command line ends: on a disk of newline-terminated files, with an iconv(3) that
    keeps its promise, the program prints something and exits; the status is 0, or 1 for an
    unknown language. The only way into undefined behaviour is a NUM that does not fit. *)
Theorem C85_every_command_line_ends :
  forall (cf : config) (T : translator) (sy : system) (prog : bytes) (args : list bytes),
  cf_strict cf = false -> serves (cf_iconv cf) T ->
  (forall f b, os_file (sy_os sy) f = Some b -> complete b) ->
  (forall d files f, os_dir (sy_os sy) d = Some files -> In f files -> real_string f) ->
  (forall f s p num, args = [bs "translate"; f; s; p; num] -> exists n, denotes num n) ->
  (forall f c s p num, args = [bs "translate"; f; c; s; p; num] -> exists n, denotes num n) ->
  exists N, forall n, N <= n ->
  exists status out err,
    ends_with (tinygettext_test (with_fuel cf n) sy (prog :: args) Programs.start) status out err /\
    (status = 0 \/
     status = 1 /\ exists d m name, args = [bs "directory"; d; m; name] /\ from_name (cf_strict cf) (cf_ndebug cf) name = Ret None).
Proof.
  intros cf T sy prog args St Sv Co Re N1 N2.
  assert (FN : forall name, exists l, from_name (cf_strict cf) (cf_ndebug cf) name = Ret l).
  { intro name. unfold from_name, resolve_language_alias. rewrite St. cbn [andb]. destruct (assoc _ aliases) as [r|]; cbn [obind]; apply from_env_total. }
  assert (RD : forall file, (exists rest, args = [bs "translate"; file] ++ rest /\ reads args file) \/ args = [bs "list-msgstrs"; file] ->
     exists N, forall n, N <= n -> exists status out err,
       ends_with (tinygettext_test (with_fuel cf n) sy (prog :: args) Programs.start) status out err /\ status = 0).
  { intros file R0. assert (R : reads args file) by (destruct R0 as [(rest & _ & R)|R]; [exact R|now left]).
    destruct (C83_failures_are_printed cf T sy prog file args St Sv R) as [F1 F2].
    destruct (os_file (sy_os sy) file) as [b|] eqn:Fi.
    - destruct (Run.C73_every_file_is_described b (Co _ _ Fi)) as ([sgs ms] & (S1 & S2 & S3) & _). cbn [fst snd] in *.
      assert (De : described b sgs ms) by (split; [exact (Co _ _ Fi)|auto]).
      destruct (unavailable T utf8 (segs_entries sgs)) as [c|] eqn:Un.
      + destruct (F2 b sgs ms c eq_refl De Un) as [N H]. exists N. intros n Hn. destruct (H n Hn) as [e E]. eauto 6.
      + destruct R0 as [(rest & E & R')|E].
        * destruct (C83_translate_prints_the_text cf T sy prog file b sgs ms St Sv Fi De Un) as [N H]. exists N. intros n Hn.
          destruct (H n Hn) as (H1 & H2 & H3 & H4). destruct R' as [R'|(rest' & E' & R')]; [rewrite E in R'; discriminate R'|].
          rewrite E' in *. clear E'. injection E as ->. cbn [app] in *.
          destruct R' as [L|[L|[(a & p & g & k & -> & D)|(c & a & p & g & k & -> & D)]]].
          -- destruct rest as [|x [|? ?]]; try discriminate L. exists 0. eexists _, _. split; [exact (H1 x)|reflexivity].
          -- destruct rest as [|x [|y [|? ?]]]; try discriminate L. exists 0. eexists _, _. split; [exact (H2 x y)|reflexivity].
          -- destruct (H3 a p g k D) as [m X]. exists 0. eexists _, _. split; [exact X|reflexivity].
          -- destruct (H4 c a p g k D) as [m X]. exists 0. eexists _, _. split; [exact X|reflexivity].
        * destruct (C83_listing cf T sy prog file b sgs ms St Sv Fi De Un) as [N H]. exists N. intros n Hn.
          destruct (H n Hn) as (pl & cx & _ & _ & _ & _ & X). rewrite E. exists 0. eexists _, _. split; [exact X|reflexivity].
    - destruct (F1 eq_refl) as [N H]. exists N. intros n Hn. destruct (H n Hn) as [e E]. eauto 6. }
  assert (W : forall file, (exists rest, args = [bs "translate"; file] ++ rest /\ reads args file) \/ args = [bs "list-msgstrs"; file] ->
     exists N, forall n, N <= n -> exists status out err,
       ends_with (tinygettext_test (with_fuel cf n) sy (prog :: args) Programs.start) status out err /\
    (status = 0 \/
     status = 1 /\ exists d m name, args = [bs "directory"; d; m; name] /\ from_name (cf_strict cf) (cf_ndebug cf) name = Ret None)).
  { intros file R. destruct (RD file R) as [N H]. exists N. intros n Hn. destruct (H n Hn) as (st & o & e & X & Y). eauto 7. }
  assert (C : understood args \/ ~ understood args) by apply understood_dec.
  destruct C as [U|U]; [|exists 0; intros n _; eexists _, _, _; split; [exact (C85_usage _ sy prog args U)|now left]].
  destruct U as [d|name|f|f m|f c m|f s p num|f c s p num|d m|d m name].
  - destruct (os_dir (sy_os sy) d) as [files|] eqn:D.
    + destruct (C85_language_dir cf sy prog d files D) as (ls & _ & _ & _ & X); [intros f Hf; exact (Re d files f D Hf)|].
      exists 0. intros n _. destruct (C85_language_dir (with_fuel cf n) sy prog d files D) as (ls' & _ & _ & _ & X'); [intros f Hf; exact (Re d files f D Hf)|].
      eexists _, _, _. split; [exact X'|now left].
    + exists 0. intros n _. destruct (C85_missing_directory (with_fuel cf n) sy prog d [] [] {| ls_addr := 0; ls_language := []; ls_country := None; ls_modifier := None; ls_name := []; ls_localized := None |} D) as [X _]. eexists _, _, _. split; [exact X|now left].
  - destruct (FN name) as [l E]. exists 0. intros n _. eexists _, _, _. split; [exact (C85_language (with_fuel cf n) sy prog name l E)|now left].
  - apply (W f). now right.
  - apply (W f). left. exists [m]. split; [reflexivity|]. right. exists [m]. auto.
  - apply (W f). left. exists [c; m]. split; [reflexivity|]. right. exists [c; m]. auto.
  - destruct (N1 f s p num eq_refl) as [k D]. apply (W f). left. exists [s; p; num]. split; [reflexivity|]. right. exists [s; p; num]. split; [reflexivity|].
    right; right; left. exists s, p, num, k. auto.
  - destruct (N2 f c s p num eq_refl) as [k D]. apply (W f). left. exists [c; s; p; num]. split; [reflexivity|]. right. exists [c; s; p; num]. split; [reflexivity|].
    right; right; right. exists c, s, p, num, k. auto.
  - exists 0. intros n _. eexists _, _, _. split; [exact (C85_directory_without_language (with_fuel cf n) sy prog d m)|now left].
  - destruct (FN name) as [[x|] E].
    + destruct (os_dir (sy_os sy) d) as [files|] eqn:D.
      * assert (Sa : forall l, exists calls, says cf T (sy_os sy) utf8 l d calls).
        { intro l. destruct (Charsets.C82_every_directory_says_one_thing cf T (sy_os sy) utf8 l d files St D) as (calls & H & _); [intros f b _ Fb; exact (Co _ _ Fb)|eauto]. }
        destruct (Sa (Some x)) as [own Ho].
        assert (Hb : exists base, if is_nil (get_country (Some x)) then base = []
          else exists b, from_spec (cf_ndebug cf) (get_language (Some x)) [] [] = Ret b /\ says cf T (sy_os sy) utf8 b d base).
        { destruct (is_nil (get_country (Some x))); [now exists []|]. destruct (from_spec_total (cf_ndebug cf) (get_language (Some x)) [] []) as [b Eb].
          destruct (Sa b) as [base H]. exists base, b. auto. }
        destruct Hb as [base Hb]. destruct (C85_directory cf T sy prog d m name x own base St Sv E Ho Hb) as [N H].
        exists N. intros n Hn. destruct (H n Hn) as [e X]. eexists _, _, _. split; [exact X|now left].
      * exists 0. intros n _. destruct (C85_missing_directory (with_fuel cf n) sy prog d m name x D) as [_ X]. eexists _, _, _. split; [exact (X E)|now left].
    + exists 0. intros n _. eexists _, _, _. split; [exact (C85_unknown_language (with_fuel cf n) sy prog d m name E)|]. right. split; [reflexivity|]. exists d, m, name. auto.
Qed.

(** ** examples *)
Definition ex_sys : system := {|
  sy_os := Charsets.foreign_shelf; sy_strerror := fun _ => bs "No such file or directory"; sy_what := fun _ => bs "cannot open directory" |}.
Lemma de_described : described Charsets.latin_de Charsets.latin_segs [None; None].
Proof.
  split; [right; exists (removelast Charsets.latin_de); vm_compute; reflexivity|]. split; [vm_compute; reflexivity|].
  split; [split; [now apply Charsets.header_in_ok|]; split; [now apply Charsets.block_in_ok|exact Logic.I]|]. repeat split.
Qed.
Lemma at_described : described Charsets.klingon_at Charsets.klingon_segs [None; None; None].
Proof.
  split; [right; exists (removelast Charsets.klingon_at); vm_compute; reflexivity|]. split; [vm_compute; reflexivity|].
  split; [split; [now apply Charsets.block_in_ok|]; split; [now apply Charsets.header_in_ok|]; split; [now apply Charsets.block_in_ok|exact Logic.I]|]. repeat split.
Qed.
Definition ex_main (args : list bytes) : outcome nat * streams := tinygettext_test (with_fuel Charsets.tab_cf 60) ex_sys (bs "tt" :: args) Programs.start.
Example ex_serves : serves (cf_iconv Charsets.tab_cf) Charsets.ex_T.
Proof. exact (proj1 (proj2 Charsets.C82_nonvacuous)). Qed.
Example C83_nonvacuous :
  os_file (sy_os ex_sys) (bs "hi/de.po") = Some Charsets.latin_de /\ described Charsets.latin_de Charsets.latin_segs [None; None] /\
  serves (cf_iconv Charsets.tab_cf) Charsets.ex_T /\
  unavailable Charsets.ex_T utf8 (segs_entries Charsets.latin_segs) = None /\
  unavailable Charsets.ex_T utf8 (segs_entries Charsets.klingon_segs) = Some (bs "KLINGON") /\
  denotes (bs " 12 things") 12 /\ (forall n, ~ denotes (bs "2147483648") n) /\
  reads [bs "translate"; bs "hi/de_AT.po"; bs "a"] (bs "hi/de_AT.po") /\
  ex_main [bs "translate"; bs "hi/de.po"; bs "a"] =
    (Ret 0, {| s_out := bs "TRANSLATION: " ++ triple [chr 195; chr 164] ++ [c_lf]; s_err := [] |}) /\
  ex_main [bs "translate"; bs "hi/de.po"; bs "a"; bs "as"; bs " 12 things"] = (Ret 0, {| s_out := [chr 195; chr 164; c_lf]; s_err := [] |}) /\
  ex_main [bs "list-msgstrs"; bs "hi/de.po"] = (Ret 0, {| s_out := text_of [bs "Msgid: a"; [chr 195; chr 164]]; s_err := [] |}) /\
  ex_main [bs "translate"; bs "hi/de_AT.po"; bs "a"] =
    (Ret 0, {| s_out := text_of [bs "Exception: IConv construction failed: conversion from 'KLINGON' to 'UTF-8' not available"]; s_err := [] |}).
Proof.
  split; [reflexivity|]. split; [exact de_described|]. split; [exact ex_serves|]. split; [vm_compute; reflexivity|]. split; [vm_compute; reflexivity|].
  split; [apply denotes_atoi; reflexivity|]. split; [intros n H; apply atoi_denotes in H; vm_compute in H; discriminate H|].
  split; [right; exists [bs "a"]; auto|]. repeat (split; [vm_compute; reflexivity|]). vm_compute. reflexivity.
Qed.

Example C84_nonvacuous :
  let cf := Charsets.tab_cf in let files := [bs "hi/de.po"; bs "x.po"; bs "hi/de_AT.po"] in
  Forall2 (fun f r => report cf ex_sys (bs "pp") f (fst r) (snd r)) files
    [([], []); ([], text_of [bs "pp: cannot access x.po: No such file or directory"]);
     (text_of [bs "hi/de_AT.po: exception: IConv construction failed: conversion from 'KLINGON' to 'UTF-8' not available"], [])] /\
  (forall b f, In f files -> os_file (sy_os ex_sys) f = Some b -> complete b).
Proof.
  intros cf files. split.
  - constructor; [|constructor; [|constructor; [|constructor]]]; cbn [fst snd].
    + exact (report_read cf ex_sys (bs "pp") (bs "hi/de.po") _ _ _ eq_refl de_described ltac:(vm_compute; reflexivity)).
    + exact (report_missing cf ex_sys (bs "pp") (bs "x.po") eq_refl).
    + exact (report_failed cf ex_sys (bs "pp") (bs "hi/de_AT.po") _ _ _ _ eq_refl at_described ltac:(vm_compute; reflexivity)).
  - intros b f [<-|[<-|[<-|[]]]] E; vm_compute in E; try discriminate E; injection E as <-; right.
    + exists (removelast Charsets.latin_de). vm_compute. reflexivity.
    + exists (removelast Charsets.klingon_at). vm_compute. reflexivity.
Qed.

Example C85_nonvacuous :
  from_name false false (bs "de_AT") = Ret de_AT /\ from_name false false (bs "Klingon") = Ret None /\
  os_dir (sy_os ex_sys) (bs "hi") = Some [bs "de.po"; bs "de_AT.po"] /\ os_dir (sy_os ex_sys) (bs "ho") = None /\
  ~ understood [bs "translate"; bs "a"] /\
  says Charsets.tab_cf Charsets.ex_T (sy_os ex_sys) utf8 de_AT (bs "hi") [CallAdd (AddSingular None (bs "b") (bs "B"))] /\
  ex_main [bs "directory"; bs "hi"; bs "a"; bs "de_AT"] =
    (Ret 0, {| s_out := text_of [bs "Directory:   'hi'"; bs "Message:     'a'";
                 bs "Language:    'de_AT' (name: 'German (Austria)', language: 'de', country: 'AT', modifier: '')";
                 bs "Translation: '" ++ [chr 195; chr 164] ++ bs "'"];
               s_err := text_of [bs "tinygettext: error: failure parsing: hi/de_AT.po";
                 bs "tinygettext: IConv construction failed: conversion from 'KLINGON' to 'UTF-8' not available";
                 bs "tinygettext: Couldn't translate: a"] |}) /\
  ex_main [bs "language-dir"; bs "hi"] =
    (Ret 0, {| s_out := text_of (bs "Number of languages: 2" :: about de ++ [[]] ++ about de_AT ++ [[]]); s_err := [] |}).
Proof.
  split; [vm_compute; reflexivity|]. split; [vm_compute; reflexivity|]. split; [reflexivity|]. split; [reflexivity|].
  split; [intro H; inversion H|]. split.
  { destruct Charsets.C82_nonvacuous as (_ & _ & H & _ & _ & _ & E & _). rewrite <- E. apply H. now left. }
  split; vm_compute; reflexivity.
Qed.

Print Assumptions C83_translate_prints_the_text.
Print Assumptions C83_failures_are_printed.
Print Assumptions C83_listing.
Print Assumptions C84_every_file_is_checked.
Print Assumptions C84_every_file_has_one_report.
Print Assumptions C85_language.
Print Assumptions C85_language_dir.
Print Assumptions C85_directory_without_language.
Print Assumptions C85_unknown_language.
Print Assumptions C85_directory.
Print Assumptions C85_missing_directory.
Print Assumptions C85_usage.
Print Assumptions C83_number_out_of_range.
Print Assumptions C84_without_files.
Print Assumptions C83_numbers.
Print Assumptions C85_every_command_line_ends.
