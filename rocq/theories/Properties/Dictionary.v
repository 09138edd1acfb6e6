(** Properties C04-C12: class Dictionary. *)
From Verif.Model Require Import Base Log PluralForms Dictionary.
From Verif.Spec Require Import DictSpec.
From Verif.Proofs Require Import BaseFacts PluralProofs DictProofs.
Local Open Scope list_scope.

(** A small history used to show that hypotheses can be met. *)
Definition demo_history : list client_call :=
  [ SetPluralForms (mkpf 2 plural2_1);
    Add (AddSingular None (bs "open") (bs "oeffnen"));
    Add (AddSingular (Some (bs "door")) (bs "open") (bs "offen"));
    Add (AddPlural None (bs "file") (bs "files") [bs "Datei"; bs "Dateien"]);
    Add (AddPlural (Some (bs "")) (bs "file") (bs "files") [bs "F"; bs ""]);
    Add (AddSingular None (bs "file") (bs "Akte")) ].

(** C04. After any history of add_translation / set_plural_forms calls on a fresh
    dictionary, every query answers as the map does. *)
Theorem C04_dictionary_is_a_map :
  forall (charset : bytes) (hist : list client_call),
  let d := run_history (new_dictionary charset) hist in
  let m := fst (spec_history hist) in let p := snd (spec_history hist) in
  (forall fuel h msgid, fst (translate (S fuel) h d msgid) = Ret (spec_translate m (None, msgid))) /\
  (forall fuel h ctxt msgid,
      fst (translate_ctxt (S fuel) h d ctxt msgid) = Ret (spec_translate m (Some ctxt, msgid))) /\
  (forall msgid msgid_plural n,
      fst (translate_plural d msgid msgid_plural n)
      = spec_translate_plural m p (None, msgid) msgid_plural n) /\
  (forall ctxt msgid msgid_plural n,
      fst (translate_ctxt_plural d ctxt msgid msgid_plural n)
      = spec_translate_plural m p (Some ctxt, msgid) msgid_plural n) /\
  get_charset d = charset /\ get_plural_forms d = p.
Proof.
  intros charset hist d m p. destruct (dictionary_is_map charset hist) as (A & B & C & D).
  destruct (run_history_lookup hist (new_dictionary charset) (fun _ => None, pf_none)) as (_ & P & _);
    [intros [[c|] k]; reflexivity|reflexivity|].
  do 4 (split; [assumption|]). split; [apply run_history_charset|exact P].
Qed.

(** A fresh dictionary has the charset asked for, no plural rule and no entries. *)
Theorem C04_fresh_dictionary :
  forall charset : bytes, let d := new_dictionary charset in
  get_charset d = charset /\ pf_valid (get_plural_forms d) = false /\ foreach d = [] /\ foreach_ctxt d = [].
Proof. intros. repeat split. Qed.

Example C04_nonvacuous :
  let d := run_history (new_dictionary utf8) demo_history in
  fst (translate 1 [] d (bs "file")) = Ret (bs "Akte") /\
  fst (translate_plural d (bs "file") (bs "files") 2) = bs "Dateien" /\
  fst (translate_ctxt 1 [] d (bs "door") (bs "open")) = Ret (bs "offen") /\
  fst (translate_ctxt_plural d (bs "") (bs "file") (bs "files") 3) = bs "files".
Proof. vm_compute. repeat split; reflexivity. Qed.

(** C05 *)
Theorem C05_untranslated_is_identity :
  forall (charset : bytes) (hist : list client_call) (ctxt : option bytes) (msgid : bytes),
  (forall op, In (Add op) hist -> op_key op <> (ctxt, msgid)) ->
  let d := run_history (new_dictionary charset) hist in
  match ctxt with
  | None => (forall fuel h, fst (translate (S fuel) h d msgid) = Ret msgid) /\
            (forall pl n, fst (translate_plural d msgid pl n) = if (n =? 1)%Z then msgid else pl)
  | Some c => (forall fuel h, fst (translate_ctxt (S fuel) h d c msgid) = Ret msgid) /\
              (forall pl n, fst (translate_ctxt_plural d c msgid pl n) = if (n =? 1)%Z then msgid else pl)
  end.
Proof. exact untranslated. Qed.

Example C05_nonvacuous :
  forall op, In (Add op) demo_history -> op_key op <> (Some (bs "door"), bs "file").
Proof.
  intros op H. unfold demo_history in H. simpl in H.
  repeat (destruct H as [H|H]; [inversion H; subst; vm_compute; discriminate|]). destruct H.
Qed.

(** C06. One add never changes the answer to a query under another key. *)
Theorem C06_contexts_isolated :
  forall (d : dictionary) (op : add_op),
  let d' := fst (add_translation d op) in
  (forall msgid, op_key op <> (None, msgid) ->
     (forall fuel h, fst (translate fuel h d' msgid) = fst (translate fuel h d msgid)) /\
     (forall pl n, fst (translate_plural d' msgid pl n) = fst (translate_plural d msgid pl n))) /\
  (forall c msgid, op_key op <> (Some c, msgid) ->
     (forall pl n, fst (translate_ctxt_plural d' c msgid pl n) = fst (translate_ctxt_plural d c msgid pl n)) /\
     (d_has_fallback d = false ->
      forall fuel h, fst (translate_ctxt (S fuel) h d' c msgid) = fst (translate_ctxt (S fuel) h d c msgid))) /\
  (forall c, fst (op_key op) <> Some c ->
     (forall fuel h msgid, translate_ctxt fuel h d' c msgid = translate_ctxt fuel h d c msgid) /\
     (forall msgid pl n, translate_ctxt_plural d' c msgid pl n = translate_ctxt_plural d c msgid pl n)).
Proof.
  intros d op. pose proof (add_fields d op) as (P & _ & F1 & F2). simpl in *. split; [|split].
  - intros i H. pose proof (lookup_add_other d op (None, i) ltac:(congruence)) as L. split; intros.
    + f_equal. apply translate_in_ext; auto.
    + rewrite !translate_plural_spec. unfold spec_translate_plural. rewrite L, P. reflexivity.
  - intros c i H. pose proof (lookup_add_other d op (Some c, i) ltac:(congruence)) as L. split; intros.
    + rewrite !translate_ctxt_plural_spec. unfold spec_translate_plural. rewrite L, P. reflexivity.
    + rewrite !translate_ctxt_nofb_spec by congruence. unfold spec_translate. rewrite L. reflexivity.
  - intros c H.
    assert (A : assoc c (d_ctxt (fst (add_translation d op))) = assoc c (d_ctxt d)).
    { destruct op as [[k|] i t|[k|] i pl ts]; cbn [op_key fst] in H; unfold add_translation, add_plural, add_singular, add_ctxt_plural, add_ctxt_singular;
        destruct (put_singular _ _) || destruct (put_plural _ _); cbn [fst d_ctxt set_ctxt set_entries]; try reflexivity; apply assoc_set_other; congruence. }
    split; intros.
    + unfold translate_ctxt. rewrite A. destruct (assoc c (d_ctxt d)) as [es|]; [|reflexivity]. destruct fuel as [|fuel]; [reflexivity|].
      cbn [translate_in]. rewrite F1, F2. reflexivity.
    + unfold translate_ctxt_plural, translate_plural_in. rewrite A, P. reflexivity.
Qed.

(** equal msgids under different contexts, and the empty context versus none *)
Example C06_nonvacuous :
  op_key (AddSingular (Some []) (bs "open") (bs "x")) <> (None, bs "open") /\
  op_key (AddSingular None (bs "open") (bs "x")) <> (Some [], bs "open") /\
  op_key (AddSingular (Some (bs "a")) (bs "open") (bs "x")) <> (Some (bs "b"), bs "open").
Proof. repeat split; discriminate. Qed.

(** C07. Which form a plural lookup returns, and what it logs. *)
Theorem C07_plural_form_selected :
  forall (d : dictionary) (es : list (bytes * list bytes)) (msgid msgid_plural : bytes) (n : Z)
         (forms : list bytes) (query : bytes * list log_stmt),
  (d_entries d = es /\ query = translate_plural d msgid msgid_plural n) \/
  (exists c, assoc c (d_ctxt d) = Some es /\ query = translate_ctxt_plural d c msgid msgid_plural n) ->
  assoc msgid es = Some forms ->
  let k := Z.to_nat (get_plural (get_plural_forms d) n) in
  (forall f, nth_error forms k = Some f -> f <> [] -> query = (f, [])) /\
  (nth_error forms k = Some [] -> query = (if (n =? 1)%Z then msgid else msgid_plural, [])) /\
  (length forms <= k ->
     query = (msgid, [log_error (bs "Plural translation not available (and not set to empty): '" ++ msgid ++ bs "'");
                      log_error (bs "Missing plural form: " ++ dec_Z (Z.of_nat k))])).
Proof.
  intros d es i pl n forms q Q A k.
  assert (E : q = translate_plural_in d es i pl n).
  { destruct Q as [[<- ->]|(c & C & ->)]; auto. unfold translate_ctxt_plural. now rewrite C. }
  clear Q. subst q. unfold translate_plural_in. rewrite A. unfold get_plural_forms in k.
  pose proof (get_plural_nonneg (d_plural d) n) as NN. fold k. repeat split.
  - intros f Hf Ne. assert (k < length forms) by (apply nth_error_Some; congruence).
    destruct (Z.leb_spec (Z.of_nat (length forms)) (get_plural (d_plural d) n)); [lia|].
    erewrite nth_error_nth by eauto. destruct f; easy.
  - intros Hf. assert (k < length forms) by (apply nth_error_Some; congruence).
    destruct (Z.leb_spec (Z.of_nat (length forms)) (get_plural (d_plural d) n)); [lia|].
    erewrite nth_error_nth by eauto. reflexivity.
  - intro Hl. destruct (Z.leb_spec (Z.of_nat (length forms)) (get_plural (d_plural d) n)); [|lia].
    unfold k. rewrite Z2Nat.id by exact NN. reflexivity.
Qed.

Example C07_nonvacuous :
  let d := run_history (new_dictionary utf8) demo_history in
  fst (translate_plural d (bs "file") (bs "files") 7) = bs "Dateien" /\
  fst (translate_ctxt_plural d [] (bs "file") (bs "files") 7) = bs "files" /\
  fst (translate_plural d (bs "open") (bs "opens") 7) = bs "open" /\
  length (snd (translate_plural d (bs "open") (bs "opens") 7)) = 2.
Proof. vm_compute. repeat split; reflexivity. Qed.

(** C08. translate on a fallback chain [ds ++ [last]] that ends. *)
Theorem C08_fallback_chain :
  forall (h : heap) (d : dictionary) (ds : list dictionary) (last : dictionary) (msgid : bytes) (fuel : nat),
  path h d ds last -> d_has_fallback last = false -> length ds < fuel ->
  fst (translate fuel h d msgid) = Ret (first_translation (ds ++ [last]) msgid).
Proof. exact translate_chain. Qed.

(** Each dictionary asked in vain is reported once, at info level; a hit is silent. *)
Theorem C08_fallback_chain_log :
  forall (h : heap) (d : dictionary) (ds : list dictionary) (last : dictionary) (msgid : bytes) (fuel : nat),
  path h d ds last -> d_has_fallback last = false -> length ds < fuel ->
  snd (translate fuel h d msgid) =
  List.repeat (log_info (bs "Couldn't translate: " ++ msgid)) (asked_in_vain (ds ++ [last]) msgid).
Proof. exact translate_chain_log. Qed.

Definition demo_base := run_history (new_dictionary utf8) demo_history.
Definition demo_variant :=
  add_fallback (run_history (new_dictionary utf8) [Add (AddSingular None (bs "yes") (bs "jo"))]) (Some 0).

Example C08_nonvacuous :
  path [(0, demo_base)] demo_variant [demo_variant] demo_base /\ d_has_fallback demo_base = false /\
  first_translation [demo_variant; demo_base] (bs "yes") = bs "jo" /\
  first_translation [demo_variant; demo_base] (bs "open") = bs "oeffnen" /\
  first_translation [demo_variant; demo_base] (bs "unknown") = bs "unknown".
Proof.
  repeat split; try (vm_compute; reflexivity). apply path_cons with demo_base; [|constructor].
  split; [reflexivity|]. exists 0. split; reflexivity.
Qed.

(** C09. A path into a cycle on which nobody knows msgid: no call depth suffices. *)
Theorem C09_fallback_cycle_diverges :
  forall (h : heap) (d0 : dictionary) (lead : list dictionary) (d : dictionary) (cycle : list dictionary)
         (msgid : bytes),
  path h d0 lead d -> path h d cycle d -> cycle <> [] ->
  (forall x, In x (lead ++ cycle) -> own_translation x msgid = None) ->
  forall fuel, fst (translate fuel h d0 msgid) = OutOfFuel.
Proof. exact translate_cycle. Qed.

Example C09_nonvacuous :
  let a := add_fallback (new_dictionary utf8) (Some 1) in
  let b := add_fallback (new_dictionary utf8) (Some 0) in
  let h := [(0, a); (1, b)] in
  path h a [a; b] a /\ (forall x, In x ([] ++ [a; b]) -> own_translation x (bs "m") = None).
Proof.
  split.
  - eapply path_cons; [split; [reflexivity|exists 1; split; reflexivity]|].
    eapply path_cons; [split; [reflexivity|exists 0; split; reflexivity]|]. constructor.
  - intros x [<-|[<-|[]]]; reflexivity.
Qed.

(** C10. Context lookups and the fallback. *)
Theorem C10_ctxt_lookup_leaves_context :
  forall (h : heap) (d fb : dictionary) (ctxt msgid : bytes) (es : list (bytes * list bytes)) (fuel : nat),
  assoc ctxt (d_ctxt d) = Some es -> (assoc msgid es = None \/ assoc msgid es = Some []) ->
  links h d fb ->
  fst (translate_ctxt (S fuel) h d ctxt msgid) = fst (translate fuel h fb msgid).
Proof.
  intros h d fb c i es f C A (H1 & p & H2 & H3). unfold translate_ctxt, translate. rewrite C. simpl.
  rewrite H1, H2, H3. destruct A as [-> | ->]; destruct (translate_in f h fb (d_entries fb) i); reflexivity.
Qed.

Theorem C10_unknown_context_ignores_fallback :
  forall fuel h d ctxt msgid, assoc ctxt (d_ctxt d) = None ->
  fst (translate_ctxt fuel h d ctxt msgid) = Ret msgid.
Proof. intros. unfold translate_ctxt. now rewrite H. Qed.

Theorem C10_plural_ignores_fallback :
  forall d fb msgid pl n,
  translate_plural (add_fallback d fb) msgid pl n = translate_plural d msgid pl n /\
  forall c, translate_ctxt_plural (add_fallback d fb) c msgid pl n = translate_ctxt_plural d c msgid pl n.
Proof. intros. split; intros; reflexivity. Qed.

(** For any context, msgid and text: a dictionary that has the context but not the
    msgid answers with the fallback's context-free text, though no dictionary has a
    translation for that msgid in that context. *)
Theorem C10_violation :
  forall (ctxt msgid other t : bytes) (fuel : nat), other <> msgid ->
  let fb := fst (add_translation (new_dictionary utf8) (AddSingular None msgid t)) in
  let d := add_fallback (fst (add_translation (new_dictionary utf8) (AddSingular (Some ctxt) other t))) (Some 0) in
  fst (translate_ctxt (S (S fuel)) [(0, fb)] d ctxt msgid) = Ret t /\
  fst (translate_ctxt (S (S fuel)) [(0, fb)] fb ctxt msgid) = Ret msgid.
Proof.
  intros ctxt msgid other t fuel N fb d. split.
  - rewrite (C10_ctxt_lookup_leaves_context _ d fb ctxt msgid [(other, [t])]).
    + apply translate_hit. unfold own_translation, fb. simpl. now rewrite bytes_eqb_refl.
    + unfold d. simpl. now rewrite bytes_eqb_refl.
    + left. simpl. apply not_eq_sym in N. apply bytes_eqb_neq in N. now rewrite N.
    + split; [reflexivity|]. exists 0. split; reflexivity.
  - reflexivity.
Qed.

(** C11 *)
Theorem C11_enumeration_exact :
  forall (charset : bytes) (hist : list client_call),
  let d := run_history (new_dictionary charset) hist in
  let m := fst (spec_history hist) in
  NoDup (List.map fst (foreach d)) /\
  (forall msgid forms, In (msgid, forms) (foreach d) <-> m (None, msgid) = Some forms) /\
  NoDup (List.map fst (foreach_ctxt d)) /\
  (forall ctxt msgid forms, In (ctxt, msgid, forms) (foreach_ctxt d) <-> m (Some ctxt, msgid) = Some forms).
Proof.
  intros cs hist d m.
  assert (W : dict_wf d) by (apply run_history_wf, new_wf).
  assert (L : forall k, lookup d k = m k).
  { apply (run_history_lookup hist (new_dictionary cs) (fun _ => None, pf_none)); [|reflexivity].
    intros [[c|] k]; reflexivity. }
  repeat split; intros.
  - apply W.
  - rewrite <- L. now apply foreach_lookup.
  - apply foreach_lookup; auto. now rewrite L.
  - now apply foreach_ctxt_nodup.
  - rewrite <- L. now apply foreach_ctxt_lookup.
  - apply foreach_ctxt_lookup; auto. now rewrite L.
Qed.

Example C11_nonvacuous :
  let d := run_history (new_dictionary utf8) demo_history in
  length (foreach d) = 2 /\ length (foreach_ctxt d) = 2.
Proof. vm_compute. split; reflexivity. Qed.

(** C12. [old] is what the map holds for the key before the add. *)
Theorem C12_warning_iff_overwrite :
  forall (charset : bytes) (hist : list client_call) (op : add_op),
  let d := run_history (new_dictionary charset) hist in
  let m := fst (spec_history hist) in
  (exists old, m (op_key op) = Some old /\ old <> [] /\ new_forms (Some old) op <> old /\
     snd (add_translation d op) = [log_warning (collision_text old op)]) \/
  (~ (exists old, m (op_key op) = Some old /\ old <> [] /\ new_forms (Some old) op <> old) /\
   snd (add_translation d op) = []).
Proof.
  intros cs hist op d m.
  assert (L : forall k, lookup d k = m k).
  { apply (run_history_lookup hist (new_dictionary cs) (fun _ => None, pf_none)); [|reflexivity].
    intros [[c|] k]; reflexivity. }
  rewrite <- (L (op_key op)). apply add_log.
Qed.

Theorem C12_same_value_changes_nothing :
  forall (charset : bytes) (hist : list client_call) (op : add_op) (old : list bytes),
  let d := run_history (new_dictionary charset) hist in
  fst (spec_history hist) (op_key op) = Some old -> new_forms (Some old) op = old ->
  add_translation d op = (d, []).
Proof.
  intros cs hist op old d M E.
  assert (L : forall k, lookup d k = fst (spec_history hist) k).
  { apply (run_history_lookup hist (new_dictionary cs) (fun _ => None, pf_none)); [|reflexivity].
    intros [[c|] k]; reflexivity. }
  rewrite (surjective_pairing (add_translation d op)). f_equal.
  - apply add_same_is_identity with old; auto. now rewrite L.
  - destruct (add_log d op) as [(o & A & B & C & _)|[_ ?]]; auto.
    exfalso. rewrite L, M in A. congruence.
Qed.

Example C12_nonvacuous :
  let d := run_history (new_dictionary utf8) demo_history in
  snd (add_translation d (AddSingular None (bs "open") (bs "auf")))
    = [log_warning (bs "collision in add_translation: 'open' -> 'auf' vs 'oeffnen'")] /\
  snd (add_translation d (AddSingular None (bs "open") (bs "oeffnen"))) = [] /\
  snd (add_translation d (AddPlural None (bs "file") (bs "files") [bs "Akte"; bs "Dateien"])) = [] /\
  length (snd (add_translation d (AddPlural None (bs "file") (bs "files") [bs "Akte"]))) = 1.
Proof. vm_compute. repeat split; reflexivity. Qed.

(** C62. What lookups without a fallback log: a hit nothing, a miss one info message;
    a plural miss also the candidates. *)
Theorem C62_lookup_log :
  forall (charset : bytes) (hist : list client_call) (msgid : bytes),
  let d := run_history (new_dictionary charset) hist in
  let m := fst (spec_history hist) in
  let miss := log_info (bs "Couldn't translate: " ++ msgid) in
  (forall fuel h, snd (translate (S fuel) h d msgid) =
     match m (None, msgid) with Some (_ :: _) => [] | _ => [miss] end) /\
  (forall fuel h c, snd (translate_ctxt (S fuel) h d c msgid) =
     match m (Some c, msgid) with Some (_ :: _) => [] | _ => [miss] end) /\
  (forall pl n, m (None, msgid) = None ->
     snd (translate_plural d msgid pl n) =
     miss :: log_info (bs "Candidates: ") :: List.map (fun kv => log_info (quoted (fst kv))) (foreach d)).
Proof.
  intros cs hist i d m miss.
  destruct (run_history_lookup hist (new_dictionary cs) (fun _ => None, pf_none)) as (L & _ & F & _);
    [intros [[c|] k]; reflexivity|reflexivity|]. fold d in L, F. fold (spec_history hist) in L. fold m in L.
  assert (F' : d_has_fallback d = false) by exact F.
  split; [|split].
  - intros f h. rewrite <- (L (None, i)). unfold lookup. cbn [fst snd]. unfold translate. cbn [translate_in]. rewrite F'.
    destruct (assoc i (d_entries d)) as [[|]|]; reflexivity.
  - intros f h c. rewrite <- (L (Some c, i)). unfold lookup. cbn [fst snd]. unfold translate_ctxt.
    destruct (assoc c (d_ctxt d)) as [es|]; [|reflexivity]. cbn [translate_in]. rewrite F'.
    destruct (assoc i es) as [[|]|]; reflexivity.
  - intros pl n. rewrite <- (L (None, i)). unfold lookup. cbn [fst snd]. intro H.
    unfold translate_plural, translate_plural_in. rewrite H. reflexivity.
Qed.

Theorem C62_plural_context_miss_log :
  forall (charset : bytes) (hist : list client_call) (c msgid pl : bytes) (n : Z),
  let d := run_history (new_dictionary charset) hist in
  let m := fst (spec_history hist) in
  let miss := log_info (bs "Couldn't translate: " ++ msgid) in
  m (Some c, msgid) = None ->
  ((forall i, m (Some c, i) = None) -> snd (translate_ctxt_plural d c msgid pl n) = [miss]) /\
  ((exists i, m (Some c, i) <> None) ->
     exists msgids, NoDup msgids /\ (forall i, In i msgids <-> m (Some c, i) <> None) /\
       snd (translate_ctxt_plural d c msgid pl n) =
       miss :: log_info (bs "Candidates: ") :: List.map (fun i => log_info (quoted i)) msgids).
Proof.
  intros cs hist c i pl n d m miss.
  destruct (run_history_lookup hist (new_dictionary cs) (fun _ => None, pf_none)) as (L & _ & _);
    [intros [[x|] k]; reflexivity|reflexivity|]. fold d in L. fold (spec_history hist) in L. fold m in L.
  pose proof (run_history_wf hist (new_dictionary cs) (new_wf cs)) as (_ & _ & W). fold d in W.
  pose proof (run_history_used hist (new_dictionary cs)) as U. fold d in U. specialize (U (fun c es H => match H with end)).
  rewrite <- (L (Some c, i)). unfold lookup. cbn [fst snd]. intro H.
  assert (X : forall j, lookup d (Some c, j) = m (Some c, j)) by (intro; apply L).
  unfold lookup in X. cbn [fst snd] in X. unfold translate_ctxt_plural.
  destruct (assoc c (d_ctxt d)) as [es|] eqn:E.
  - pose proof (assoc_In _ _ _ E) as E'. specialize (W _ _ E'). specialize (U _ _ E').
    split.
    + intro N. exfalso. destruct es as [|[k v] es]; [congruence|]. specialize (X k). cbn [assoc] in X.
      rewrite bytes_eqb_refl in X. rewrite N in X. discriminate.
    + intros _. exists (List.map fst es). split; [exact W|]. split.
      * intro j. rewrite <- X. rewrite in_map_iff. split.
        -- intros ([j' v] & <- & Hj). cbn [fst]. rewrite (In_assoc _ _ _ W Hj). discriminate.
        -- intro Hj. destruct (assoc j es) as [v|] eqn:Ej; [|congruence]. apply assoc_In in Ej. exists (j, v). auto.
      * unfold translate_plural_in. rewrite H. cbn [snd]. rewrite map_map. reflexivity.
  - split; [reflexivity|]. intros (j & Hj). rewrite <- X in Hj. congruence.
Qed.

Example C62_nonvacuous :
  let d := run_history (new_dictionary utf8) demo_history in
  fst (spec_history demo_history) (Some (bs "door"), bs "shut") = None /\
  snd (translate_ctxt_plural d (bs "door") (bs "shut") (bs "shuts") 2) =
  [log_info (bs "Couldn't translate: shut"); log_info (bs "Candidates: "); log_info (bs "'open'")] /\
  snd (translate_ctxt_plural d (bs "gate") (bs "shut") (bs "shuts") 2) = [log_info (bs "Couldn't translate: shut")].
Proof. vm_compute. repeat split. Qed.

Print Assumptions C62_lookup_log.
Print Assumptions C62_plural_context_miss_log.
Print Assumptions C04_dictionary_is_a_map.
Print Assumptions C05_untranslated_is_identity.
Print Assumptions C06_contexts_isolated.
Print Assumptions C07_plural_form_selected.
Print Assumptions C08_fallback_chain.
Print Assumptions C09_fallback_cycle_diverges.
Print Assumptions C10_violation.
Print Assumptions C11_enumeration_exact.
Print Assumptions C12_warning_iff_overwrite.
Print Assumptions C12_same_value_changes_nothing.

Print Assumptions C04_fresh_dictionary.
Print Assumptions C08_fallback_chain_log.
Print Assumptions C10_ctxt_lookup_leaves_context.
Print Assumptions C10_unknown_context_ignores_fallback.
Print Assumptions C10_plural_ignores_fallback.
