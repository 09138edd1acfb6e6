(** Property C71: DictionaryManager calls that do not come back. *)
From Verif.Model Require Import Base Log PluralForms Dictionary IConv Language Stream PoParser Manager.
From Verif.Spec Require Import DictSpec LangSpec ParserSpec ManagerSpec LoadSpec.
From Verif.Proofs Require Import BaseFacts DictProofs LangProofs ParserSafe ParserFuel ParserTerm
  ManagerLoad ManagerOwn ManagerGet ManagerStep ManagerFull ManagerContent ManagerProps ManagerLog ManagerFuel ManagerFiles.
From Verif.Properties Require Import Parser Manager ManagerLife NoNewline.
Local Open Scope list_scope.

Lemma fuel_dec A (o : outcome A) : {o = OutOfFuel} + {o <> OutOfFuel}.
Proof. destruct o; (left; reflexivity) || (right; discriminate). Qed.
Lemma ends_intro cf fs op m n : fst (mstep (with_fuel cf n) fs op m) <> OutOfFuel ->
  ends cf fs op m (fst (mstep (with_fuel cf n) fs op m)) (snd (mstep (with_fuel cf n) fs op m)).
Proof.
  intro H. split; [exact H|]. exists n. intros k Hk. rewrite (mstep_fuel cf fs op m n k Hk H). apply surjective_pairing.
Qed.

(** C71. The bound with which the model cuts off the parser's loops plays no part: a call
    has one result, the same for every bound large enough to obtain any, or none. *)
Theorem C71_one_result :
  forall (cf : config) (fs : file_system) (op : mop) (m : manager),
  (forall o1 m1 o2 m2, ends cf fs op m o1 m1 -> ends cf fs op m o2 m2 -> o1 = o2 /\ m1 = m2) /\
  (forall n o m', mstep (with_fuel cf n) fs op m = (o, m') -> o = OutOfFuel \/ ends cf fs op m o m') /\
  (hangs cf fs op m <-> ~ exists o m', ends cf fs op m o m').
Proof.
  intros cf fs op m. split; [|split].
  - intros o1 m1 o2 m2 (_ & N1 & H1) (_ & N2 & H2). specialize (H1 (max N1 N2) ltac:(lia)). specialize (H2 (max N1 N2) ltac:(lia)).
    rewrite H1 in H2. now injection H2.
  - intros n o m' E. destruct (fuel_dec _ o) as [->|H]; [now left|]. right. pose proof (ends_intro cf fs op m n) as I.
    rewrite E in I. exact (I H).
  - split.
    + intros H (o & m' & Ho & N & E). specialize (E N (Nat.le_refl N)). specialize (H N). rewrite E in H. contradiction.
    + intros H n. destruct (fuel_dec _ (fst (mstep (with_fuel cf n) fs op m))) as [E|E]; [exact E|].
      exfalso. apply H. eexists. eexists. exact (ends_intro cf fs op m n E).
Qed.

(** A session of calls that all return keeps doing so, with the same results, under every
    larger bound. *)
Theorem C71_sessions :
  forall (cf : config) (fs : file_system) (m : manager) (ops : list mop) (m' : manager) (n : nat),
  session cf fs m ops m' -> cf_fuel cf <= n -> session (with_fuel cf n) fs m ops m'.
Proof.
  intros cf fs m ops m' n S Hn. induction S as [m|m op out m1 ops m2 E _ IH]; [apply session_nil|].
  apply (session_cons _ _ m op out m1); [|exact IH].
  rewrite (mstep_fuel cf fs op m (cf_fuel cf) n Hn); rewrite cf_eta; [exact E|]. rewrite E. discriminate.
Qed.

Lemma known_state cf cs ops : valid ops -> let m := mrun cf ops (new_manager cs) in
  own (cf_ndebug cf) m /\ m_path m = path_after [] (List.map snd ops) /\ m_charset m = charset_after cs (List.map snd ops) /\
  m_lang m = language_after None (List.map snd ops).
Proof.
  intros V m. destruct (run_inv cf ops _ V (own_new cf cs) (NoDup_nil _)) as (O & _ & P & S & L). auto.
Qed.
Lemma other_ends cf fs op m : own (cf_ndebug cf) m -> well_behaved fs ->
  match op with OpGetDictionary | OpGetDictionaryLang _ => False | _ => True end ->
  fst (mstep (with_fuel cf 0) fs op m) <> OutOfFuel.
Proof.
  intros O W S.
  assert (O' : own (cf_ndebug (with_fuel cf 0)) m) by exact O.
  destruct op as [l|c|b|q f|q| |l| | |]; try contradiction S.
  - rewrite do_set_language. discriminate.
  - destruct (do_set_charset (with_fuel cf 0) fs c m O') as (m1 & _ & _ & ->). discriminate.
  - destruct (do_set_use_fuzzy (with_fuel cf 0) fs b m O') as (m1 & _ & _ & ->). discriminate.
  - destruct (in_dec (list_eq_dec ascii_dec) q (m_path m)) as [I|I]; [rewrite do_add_present by exact I; discriminate|].
    destruct (do_add_directory (with_fuel cf 0) fs q f m O' I) as (m1 & _ & _ & ->). discriminate.
  - destruct (in_dec (list_eq_dec ascii_dec) q (m_path m)) as [I|I]; [|rewrite do_remove_absent by exact I; discriminate].
    destruct (do_remove_directory (with_fuel cf 0) fs q m O' I) as (m1 & _ & _ & ->). discriminate.
  - rewrite do_get_languages. cbn [fst].
    assert (X : forall ps acc, langs_of_dirs (with_fuel cf 0) fs ps acc <> OutOfFuel).
    { induction ps as [|p ps IH]; intro acc; cbn [langs_of_dirs]; [discriminate|]. destruct (W p) as [WD _].
      destruct (fs_dir fs p) as [files|e|u| |]; cbn [obind]; try contradiction; [|discriminate].
      assert (Y : forall fl ac, langs_of_files (with_fuel cf 0) fl ac <> OutOfFuel).
      { induction fl as [|g fl IHf]; intro ac; cbn [langs_of_files]; [discriminate|]. destruct (has_suffix g dot_po); [|apply IHf].
        destruct (substr g 0 _) as [stem|]; [|discriminate]. destruct (from_env_total (cf_ndebug (with_fuel cf 0)) stem) as [po ->]. apply IHf. }
      pose proof (Y files acc). destruct (langs_of_files (with_fuel cf 0) files acc) as [x|?|?| |]; cbn [obind]; try discriminate; [apply IH|contradiction]. }
    specialize (X (m_path m) []). destruct (langs_of_dirs (with_fuel cf 0) fs (m_path m) []); try discriminate. contradiction.
  - discriminate.
  - discriminate.
Qed.

(** Only the two get_dictionary calls can fail to come back. *)
Theorem C71_other_calls_come_back :
  forall (cf : config) (fs : file_system) (cs : bytes) (ops : list (file_system * mop)) (op : mop),
  valid ops -> well_behaved fs ->
  match op with OpGetDictionary | OpGetDictionaryLang _ => False | _ => True end ->
  exists o m', ends cf fs op (mrun cf ops (new_manager cs)) o m'.
Proof.
  intros cf fs cs ops op V W S. destruct (known_state cf cs ops V) as (O & _).
  eexists. eexists. apply (ends_intro cf fs op _ 0). now apply other_ends.
Qed.

(** [get_dictionary(l)] on directories [path] gets stuck: on a file for [l], or, those being
    read, on one for the base language. *)
Definition gets_stuck (cf : config) (fs : file_system) (cs : bytes) (path : list bytes) (l : language) : Prop :=
  never_read cf fs l (rev path) (new_dictionary cs) \/
  (get_country l <> [] /\ exists b d1 t1, from_spec (cf_ndebug cf) (get_language l) [] [] = Ret (Some b) /\
    path_reads cf fs l (rev path) (new_dictionary cs) None d1 t1 /\
    never_read cf fs (Some b) (rev path) (new_dictionary cs)).

Lemma get_stuck cf fs m l : known l -> well_behaved fs ->
  (forall n, fst (get_state (with_fuel cf n) fs m l) = OutOfFuel) -> ~ ~ gets_stuck cf fs (m_charset m) (m_path m) l.
Proof.
  intros K W H NS. apply (get_cps cf fs False m l K).
  - apply (load_cps cf fs W False). intros name i d1 R k. apply NS. left. exists name, i, d1. split; [exact R|].
    intro n. destruct (fuel_dec _ (pr_outcome (po_parse (with_fuel cf n) name i d1))) as [E|E]; [exact E|]. exfalso. apply k. now exists n.
  - intros n0 d1 t1 E C b B. apply (load_cps cf fs W False). intros name i d2 R k. apply NS. right. split; [exact C|].
    destruct (ld_reads cf fs n0 m l d1 t1 E) as [t R1]. exists b, d1, t. split; [exact B|]. split; [exact R1|]. exists name, i, d2. split; [exact R|].
    intro n. destruct (fuel_dec _ (pr_outcome (po_parse (with_fuel cf n) name i d2))) as [F|F]; [exact F|]. exfalso. apply k. now exists n.
  - intros (n & X). exact (X (H n)).
Qed.
Lemma get_lang_fuel cf fs m l n : known l ->
  fst (mstep (with_fuel cf n) fs (OpGetDictionaryLang l) m) = OutOfFuel <-> fst (get_state (with_fuel cf n) fs m l) = OutOfFuel.
Proof.
  intro K. rewrite do_get_lang by exact K. cbn [fst]. destruct (fst (get_state (with_fuel cf n) fs m l)); cbn [omap]; split; intro H; discriminate || reflexivity.
Qed.
Lemma get_fuel cf fs m n : known (m_lang m) -> fst (mstep (with_fuel cf n) fs OpGetDictionary m) = OutOfFuel ->
  m_lang m <> None /\ fst (get_state (with_fuel cf n) fs m (m_lang m)) = OutOfFuel.
Proof.
  intro K. rewrite do_get by exact K. destruct (m_cur m); [discriminate|]. destruct (m_lang m) as [s|]; cbn [is_none]; [|discriminate].
  intro H. split; [discriminate|]. destruct (get_state (with_fuel cf n) fs m (Some s)) as [[?|?|?| |] ?]; cbn [fst] in *; discriminate || reflexivity.
Qed.

(** On a new manager, get_dictionary(l) does not come back exactly when it gets stuck on a
    file that parse never finishes. (Whether it gets stuck cannot be decided for an arbitrary
    character converter; hence "not not".) *)
Theorem C71_new_manager :
  forall (cf : config) (fs : file_system) (cs : bytes) (path : list bytes) (l : language),
  NoDup path -> known l -> l <> None -> well_behaved fs ->
  (cf_strict cf = false -> gets_stuck cf fs cs path l -> hangs cf fs (OpGetDictionaryLang l) (fresh cf fs cs path)) /\
  (hangs cf fs (OpGetDictionaryLang l) (fresh cf fs cs path) -> ~ ~ gets_stuck cf fs cs path l).
Proof.
  intros cf fs cs path l ND K NN W. destruct (fresh_state cf fs cs path ND) as (O & C & P & S & _).
  set (m := fresh cf fs cs path) in *. clearbody m. split.
  - intros St H n. apply get_lang_fuel; [exact K|]. unfold get_state.
    assert (A : forall x, asserts (with_fuel cf n) (Some x) = false) by (intro; unfold asserts; cbn [is_none]; apply andb_false_r).
    destruct l as [s|]; [clear NN|now contradiction NN].
    rewrite C. cbn [cache_find]. destruct (is_nil_spec _ (get_country (Some s))) as [Co|Co].
    + destruct H as [H|[X _]]; [|contradiction]. unfold leaf_outcome. rewrite A, C. cbn [cache_find].
      cbn [fst]. rewrite P, S. now rewrite (never_read_load cf fs St _ _ _ H n).
    + rewrite P, S. destruct H as [H|(_ & b & d1 & t1 & B & R & H)]; [now rewrite (never_read_load cf fs St _ _ _ H n)|].
      change (cf_ndebug (with_fuel cf n)) with (cf_ndebug cf). rewrite B.
      destruct (path_reads_pload cf fs St _ _ _ _ _ _ R eq_refl) as [N Pn].
      assert (E : fst (fst (pload (with_fuel cf n) fs (Some s) (rev path) (new_dictionary cs))) = OutOfFuel \/
                  fst (fst (pload (with_fuel cf n) fs (Some s) (rev path) (new_dictionary cs))) = Ret tt).
      { destruct (fuel_dec _ (fst (fst (pload (with_fuel cf n) fs (Some s) (rev path) (new_dictionary cs))))) as [E|E]; [now left|right].
        rewrite <- (pload_fuel cf fs (Some s) _ _ n (max n N)) by (lia || exact E). destruct (Pn (max n N) ltac:(lia)) as [t ->]. reflexivity. }
      destruct E as [-> | ->]; [reflexivity|]. cbv zeta.
      assert (L : leaf_outcome (with_fuel cf n) fs (loaded (with_fuel cf n) fs m (Some s)) (Some b) = OutOfFuel).
      { unfold leaf_outcome. rewrite A.
        change (m_path (loaded (with_fuel cf n) fs m (Some s))) with (m_path m). change (m_charset (loaded (with_fuel cf n) fs m (Some s))) with (m_charset m).
        destruct (base_of (cf_ndebug cf) (Some s) K Co) as (b' & B1 & B2 & B3 & B4). rewrite B in B1. injection B1 as <-.
        rewrite loaded_find_other; [|exact K|exact B2|exact B4]. rewrite C. cbn [cache_find]. rewrite P, S.
        now rewrite (never_read_load cf fs St _ _ _ H n). }
      rewrite L. reflexivity.
  - intros H. rewrite <- P, <- S. apply get_stuck; auto. intro n. apply get_lang_fuel; auto.
Qed.

(** After any history, a get_dictionary call that does not come back got stuck like that. *)
Theorem C71_any_time :
  forall (cf : config) (fs : file_system) (cs : bytes) (ops : list (file_system * mop)) (l : language),
  valid ops -> known l -> well_behaved fs ->
  let m := mrun cf ops (new_manager cs) in
  let path := path_after [] (List.map snd ops) in
  let cs' := charset_after cs (List.map snd ops) in
  let current := language_after None (List.map snd ops) in
  (hangs cf fs (OpGetDictionaryLang l) m -> ~ ~ gets_stuck cf fs cs' path l) /\
  (hangs cf fs OpGetDictionary m -> current <> None /\ ~ ~ gets_stuck cf fs cs' path current).
Proof.
  intros cf fs cs ops l V K W m path cs' current. destruct (known_state cf cs ops V) as (O & P & S & L). fold m path cs' current in O, P, S, L.
  rewrite <- P, <- S, <- L. split.
  - intro H. apply get_stuck; auto. intro n. apply get_lang_fuel; auto.
  - intro H. assert (KL : known (m_lang m)) by apply (own_lang _ _ O). split; [exact (proj1 (get_fuel cf fs m 0 KL (H 0)))|].
    apply get_stuck; auto. intro n. exact (proj2 (get_fuel cf fs m n KL (H n))).
Qed.

(** If all files end well, every call comes back. *)
Theorem C71_files_that_end_well :
  forall (cf : config) (fs : file_system) (cs : bytes) (ops : list (file_system * mop)) (op : mop),
  valid ops -> client_op op -> well_behaved fs -> files_end_well fs ->
  exists o m', ends cf fs op (mrun cf ops (new_manager cs)) o m'.
Proof.
  intros cf fs cs ops op V C W Fe. destruct (known_state cf cs ops V) as (O & _). set (m := mrun cf ops (new_manager cs)) in *. clearbody m.
  assert (L : forall l ps d, exists n, fst (fst (pload (with_fuel cf n) fs l ps d)) <> OutOfFuel).
  { intros l ps d. apply (load_cps cf fs W (exists n, fst (fst (pload (with_fuel cf n) fs l ps d)) <> OutOfFuel) l ps d); [|auto].
    intros name i d1 (before & p & after & t1 & bf & f & af & _ & _ & _ & _ & _ & _ & _ & F) k. apply k. apply ends_well_parsed. exact (Fe _ _ F). }
  assert (Gt : forall l, known l -> exists n, fst (get_state (with_fuel cf n) fs m l) <> OutOfFuel).
  { intros l K. apply (get_cps cf fs (exists n, fst (get_state (with_fuel cf n) fs m l) <> OutOfFuel) m l K); auto. }
  assert (X : exists n, fst (mstep (with_fuel cf n) fs op m) <> OutOfFuel).
  { destruct op as [l|c|b|q f|q| |l| | |]; try (exists 0; apply other_ends; auto; exact Logic.I).
    - destruct (Gt (m_lang m) (own_lang _ _ O)) as [n H]. exists n. intro E. apply H. exact (proj2 (get_fuel cf fs m n (own_lang _ _ O) E)).
    - destruct (Gt l C) as [n H]. exists n. intro E. apply H. now apply get_lang_fuel. }
  destruct X as [n X]. eexists. eexists. exact (ends_intro cf fs op m n X).
Qed.

(** One bad file is enough: a directory whose best file for [l] has no newline at its end and
    ends in a comment, a continued string or a msgstr[N] line. (The newline is all that is
    missing: with it, the file parses normally.) *)
Theorem C71_one_bad_file :
  forall (cf : config) (o : os_state) (cs p : bytes) (l : language) (bf : list bytes) (f : bytes) (af : list bytes)
         (b : bytes) (sg : DamageSpec.segment) (r : parse_result),
  cf_strict cf = false -> cf_ndebug cf = true -> known l -> l <> None ->
  os_dir o p = Some (bf ++ f :: af) -> candidate cf l f ->
  (forall g, In g bf -> (rating cf l g < rating cf l f)%Z) -> (forall g, In g af -> (rating cf l g <= rating cf l f)%Z) ->
  os_file o (p ++ bs "/" ++ f) = Some b ->
  ~ complete b -> last_segment b sg -> DamageSpec.stuck sg ->
  parses_to cf (p ++ bs "/" ++ f) (stream_of (b ++ [c_lf])) (new_dictionary cs) r -> pr_outcome r = Ret tt ->
  hangs cf (unix_file_system o) (OpGetDictionaryLang l) (fresh cf (unix_file_system o) cs [p]).
Proof.
  intros cf o cs p l bf f af b sg r St Nd K NN D Ca A1 A2 F Hb Hl Hs Pr Ho.
  assert (W : well_behaved (unix_file_system o)).
  { intro q. cbn [fs_dir fs_file unix_file_system]. split; [destruct (os_dir o q)|]; exact Logic.I. }
  destruct (C71_new_manager cf (unix_file_system o) cs [p] l) as [H _]; auto; [constructor; [intros []|constructor]|].
  apply H; [exact St|]. left. exists (p ++ bs "/" ++ f), (stream_of b), (new_dictionary cs). split.
  - exists [], p, [], [], bf, f, af. split; [reflexivity|]. split; [apply path_nil|].
    cbn [fs_dir fs_file unix_file_system]. rewrite D, F. repeat split; auto.
  - exact (proj1 (proj2 (C69_stuck_files_never_return cf _ b _ sg Hb Hl Hs) r Pr Ho) Nd).
Qed.

(** de.po ends in the comment "# the end" without a newline. *)
Definition release_cf : config :=
  {| cf_pedantic := true; cf_strict := false; cf_ndebug := true; cf_fuel := 0; cf_iconv := cf_iconv ex_cf |}.
Definition bad_os : os_state := {|
  os_dir := fun p => if bytes_eqb p (bs "d") then Some [bs "README"; bs "de.po"] else None;
  os_file := fun f => if bytes_eqb f (bs "d/de.po") then Some ex_comment else None |}.
Example C71_nonvacuous :
  let fs := unix_file_system bad_os in
  well_behaved fs /\
  hangs release_cf fs (OpGetDictionaryLang de) (fresh release_cf fs utf8 [bs "d"]) /\
  ~ ~ gets_stuck release_cf fs utf8 [bs "d"] de /\
  (exists o m, ends release_cf fs OpGetLanguages (fresh release_cf fs utf8 [bs "d"]) o m) /\
  files_end_well ex_fs /\ valid [(fs, OpAddDirectory (bs "hi") false)] /\
  (exists m, session ex_run ex_fs (new_manager utf8) [OpAddDirectory (bs "hi") false; OpGetDictionaryLang de_AT] m).
Proof.
  intro fs.
  assert (W : well_behaved fs).
  { intro q. cbn [fs_dir fs_file unix_file_system fs]. split; [|exact Logic.I]. unfold fs. cbn [fs_dir unix_file_system]. destruct (os_dir bad_os q); exact Logic.I. }
  assert (N : ~ complete ex_comment).
  { intros [X|(x & X)]; [discriminate X|]. apply (f_equal (fun b => last b c_hash)) in X. rewrite last_last in X. vm_compute in X. discriminate X. }
  assert (H : hangs release_cf fs (OpGetDictionaryLang de) (fresh release_cf fs utf8 [bs "d"])).
  { destruct C69_nonvacuous as (_ & _ & S & Sk & _).
    eapply (C71_one_bad_file release_cf bad_os utf8 (bs "d") de [bs "README"] (bs "de.po") [] ex_comment _
              (po_parse (with_fuel release_cf 60) (bs "d" ++ bs "/" ++ bs "de.po") (stream_of (ex_comment ++ [c_lf])) (new_dictionary utf8))
              eq_refl eq_refl de_known ltac:(discriminate) eq_refl).
    - eexists. split; vm_compute; reflexivity.
    - intros g [<-|[]]. vm_compute. reflexivity.
    - intros g [].
    - reflexivity.
    - exact N.
    - eexists. exact S.
    - exact Sk.
    - apply parses_to_intro. vm_compute. discriminate.
    - vm_compute. reflexivity. }
  split; [exact W|]. split; [exact H|]. split.
  { apply (proj2 (C71_new_manager release_cf fs utf8 [bs "d"] de ltac:(constructor; [intros []|constructor]) de_known ltac:(discriminate) W)), H. }
  split. { apply (C71_other_calls_come_back release_cf fs utf8 [(fs, OpAddDirectory (bs "d") false)] OpGetLanguages); [|exact W|exact Logic.I]. repeat constructor. }
  split.
  { intros name i E. unfold ex_fs in E. cbn [fs_file unix_file_system ex_os os_file] in E.
    destruct (bytes_eqb name (bs "hi/de.po")); [injection E as <-; right; vm_compute; reflexivity|].
    destruct (bytes_eqb name (bs "hi/de_AT.po")); [injection E as <-; right; vm_compute; reflexivity|].
    destruct (bytes_eqb name (bs "lo/de.po")); [injection E as <-; right; vm_compute; reflexivity|].
    injection E as <-. left. reflexivity. }
  split; [repeat constructor|].
  eexists. repeat (eapply session_cons; [vm_compute; reflexivity|]). apply session_nil.
Qed.

Print Assumptions C71_one_result.
Print Assumptions C71_sessions.
Print Assumptions C71_other_calls_come_back.
Print Assumptions C71_new_manager.
Print Assumptions C71_any_time.
Print Assumptions C71_files_that_end_well.
Print Assumptions C71_one_bad_file.
