(** Property C105: the order in which a directory's files are listed. *)
From Coq Require Import Permutation.
From Verif.Model Require Import Base Log PluralForms Dictionary IConv Language Stream PoParser Manager.
From Verif.Spec Require Import DictSpec LangSpec ParserSpec ManagerSpec LoadSpec OrderSpec.
From Verif.Proofs Require Import BaseFacts LangProofs ManagerOwn ManagerGet ManagerStep ManagerFiles DirOrder.
From Verif.Properties Require Import Parser Manager ManagerFiles Menu.
Local Open Scope list_scope.

Lemma wanted_base cf ops l b : wanted cf ops l -> from_spec (cf_ndebug cf) (get_language l) [] [] = Ret b -> wanted cf ops b.
Proof.
  intros (x & l0 & I & P & [->|B]) E; [exists x, l0; auto|]. exists x, l0. split; [exact I|]. split; [exact P|]. right.
  destruct (from_spec_cases (cf_ndebug cf) (get_language l0) [] []) as [[X N]|(u1 & s & u2 & X & La & Es & _)]; rewrite B in X; injection X as ->.
  - assert (Y : from_spec (cf_ndebug cf) (get_language None) [] [] = Ret None) by (destruct (cf_ndebug cf); vm_compute; reflexivity).
    rewrite Y in E. injection E as <-. exact B.
  - change (get_language (Some s)) with (ls_language s) in E. rewrite Es in E. exact E.
Qed.

(** C105. If in every directory one file fits each language asked for (and its base
    language) best, the order of the listings does not matter: all calls of a session have
    the same outcomes, the managers are the same, and the same messages are logged, perhaps
    in another order. *)
Theorem C105_the_order_is_irrelevant :
  forall (cf : config) (cs : bytes) (ops ops' : list (file_system * mop)),
  Forall2 (fun x y => reordered (fst x) (fst y) /\ snd x = snd y) ops ops' ->
  (forall x p files, In x ops -> fs_dir (fst x) p = Ret files ->
     tidy cf files /\ forall l, wanted cf ops l -> decisive cf l files) ->
  forall os m os' m', answers cf ops (new_manager cs) = (os, m) -> answers cf ops' (new_manager cs) = (os', m') ->
  os' = os /\ upd_tr m [] = upd_tr m' [] /\ Permutation (m_tr m) (m_tr m').
Proof.
  intros cf cs ops ops' F H. set (W := wanted cf ops) in *.
  assert (Wp : forall x l, In x ops -> passed (snd x) l -> W l) by (intros x l I P; exists x, l; auto).
  assert (Wb : forall l b, W l -> from_spec (cf_ndebug cf) (get_language l) [] [] = Ret b -> W b) by (intros l b; apply wanted_base).
  clearbody W. assert (E0 : rel W (new_manager cs) (new_manager cs)) by (repeat split; [constructor|intro X; now destruct X]).
  revert E0. generalize (new_manager cs) at 1 3 as a. generalize (new_manager cs) as b. revert H Wp.
  induction F as [|[fs op] [fs' op'] ops ops' [R E] F IH]; intros H Wp b a E0 os m os' m' A A'; cbn [answers] in A, A'.
  - injection A as <- <-. injection A' as <- <-. destruct E0 as (X & Y & _). auto.
  - cbn [fst snd] in R, E. subst op'.
    destruct (lock_step cf fs fs' W R) with (op := op) (a := a) (b := b) as (O & E1 & _); auto.
    + intros p files Dp. apply (H (fs, op) p files (or_introl eq_refl) Dp).
    + intros l p files Wl Dp. now apply (H (fs, op) p files (or_introl eq_refl) Dp).
    + intros l Pl. apply (Wp (fs, op)); [now left|exact Pl].
    + destruct (mstep cf fs op a) as [o a1], (mstep cf fs' op b) as [o' b1]. cbn [fst snd] in O, E1. subst o'.
      destruct (answers cf ops a1) as [os1 a2] eqn:A1, (answers cf ops' b1) as [os1' b2] eqn:A1'.
      injection A as <- <-. injection A' as <- <-.
      destruct (IH (fun x p files I => H x p files (or_intror I)) (fun x l I => Wp x l (or_intror I)) b1 a1 E1 _ _ _ _ A1 A1') as (-> & X & Y). auto.
Qed.

(** get_languages never depends on the order. *)
Theorem C105_get_languages :
  forall (cf : config) (fs fs' : file_system) (m : manager), reordered fs fs' ->
  (forall p files, fs_dir fs p = Ret files -> tidy cf files) ->
  mstep cf fs' OpGetLanguages m = mstep cf fs OpGetLanguages m.
Proof.
  intros cf fs fs' m R T. rewrite !do_get_languages, (langs_perm cf fs fs' (m_path m) R T []); [reflexivity|constructor|exact Logic.I].
Qed.

(** [violation] Otherwise the order decides: each of the files that fit best is the one
    that is loaded, in some order of the listing. *)
Theorem C105_the_order_decides :
  forall (cf : config) (files : list bytes) (l : language) (f : bytes), known l -> fits_best cf l files f ->
  exists files', Permutation files files' /\
    forall (fs : file_system) (cs p : bytes) (m : manager) (d : dictionary), fs_dir fs p = Ret files' ->
    returns cf fs (fresh cf fs cs [p]) l m d ->
    let name := p ++ bs "/" ++ f in
    match fs_file fs name with
    | Ret (Some i) => exists r, parses_to cf name i (new_dictionary cs) r /\
                        (forall k, lookup d k = lookup (pr_dict r) k) /\ get_plural_forms d = get_plural_forms (pr_dict r)
    | _ => forall k, lookup d k = None
    end.
Proof.
  intros cf files l f K (I & C & B). apply in_split in I as (a & b & ->). exists (f :: a ++ b).
  split; [apply Permutation_sym, Permutation_middle|]. intros fs cs p m d D R.
  destruct (C46_best_file cf fs cs p l m d K R) as (files & D' & H). rewrite D in D'. injection D' as <-.
  destruct H as [(H & _)|(bf & g & af & E & Cg & H1 & H2 & L)]; [exfalso; apply (H f); [now left|exact C]|].
  destruct bf as [|h bf]; cbn [app] in E; injection E as E1 E2; [subst g; exact L|]. exfalso. subst h.
  specialize (H1 f (or_introl eq_refl)). assert (Ig : In g (a ++ f :: b)).
  { assert (Ig : In g (a ++ b)) by (rewrite E2; apply in_or_app; right; now left). apply in_app_or in Ig. apply in_or_app. cbn [In]. tauto. }
  specialize (B g Ig). unfold rating in B. lia.
Qed.

(** A directory with exactly one file for exactly the language asked for is decisive. *)
Theorem C105_one_exact_file_is_decisive :
  forall (cf : config) (files : list bytes) (s : language_spec) (f : bytes),
  In s languages -> In f files -> (forall g, In g files -> (po_language cf g = Some s <-> g = f)) -> decisive cf (Some s) files.
Proof.
  intros cf files s f I If U.
  assert (X : forall g, fits_best cf (Some s) files g -> g = f); [|intros g h Hg Hh; now rewrite (X g Hg), (X h Hh)].
  intros g (Ig & (s' & Es & _) & B). apply U; [exact Ig|]. specialize (B f If). unfold rating in B. rewrite (proj2 (U f If) eq_refl), Es in B.
  rewrite (proj2 (lang_match_nine (Some s) (Some s))) in B by auto. pose proof (lang_match_range (Some s) (Some s')).
  assert (N : lang_match (Some s) (Some s') = 9%Z) by lia. apply lang_match_nine in N as (N1 & N2 & N3).
  assert (I' : In s' languages).
  { assert (K : known (po_language cf g)); [|now rewrite Es in K]. unfold po_language.
    destruct (has_suffix _ _); [|exact Logic.I]. destruct (convertFilename2Language _ _) as [t|?|?| |]; try exact Logic.I.
    destruct (from_env (cf_ndebug cf) t) as [l|?|?| |] eqn:F; try exact Logic.I. now apply from_env_known in F. }
  pose proof (spec_roundtrip true s I) as Y. rewrite N1, N2, N3, (spec_roundtrip true s' I') in Y. injection Y as ->. exact Es.
Qed.

(** [violation] A locale whose country is in lower case (zh_tw): from_env takes it for a
    language for which the files of all countries are equally good, although the file named
    after the very locale (zh_tw.po) stands for the country meant. So the order decides, for
    every country of the table and every other country with its language. *)
Theorem C105_lower_case_locale :
  forall (cf : config) (s s2 : language_spec),
  In s languages -> In s2 languages -> ls_language s = ls_language s2 ->
  get_country (Some s) <> [] -> get_modifier (Some s) = [] -> get_country (Some s2) <> [] -> get_modifier (Some s2) = [] ->
  let locale := get_language (Some s) ++ bs "_" ++ List.map tolower (get_country (Some s)) in
  let own := locale ++ bs ".po" in let other := str (Some s2) ++ bs ".po" in
  exists l, from_env (cf_ndebug cf) locale = Ret l /\ po_language cf own = Some s /\ po_language cf other = Some s2 /\
    fits_best cf l [own; other] own /\ fits_best cf l [own; other] other.
Proof.
  intros cf s s2 I I2 E Co Mo Co2 Mo2 locale own other.
  assert (H : forall nd, forallb (fun s => is_nil (get_country (Some s)) || negb (is_nil (get_modifier (Some s))) ||
       match from_env nd (get_language (Some s) ++ bs "_" ++ List.map tolower (get_country (Some s))) with
       | Ret l => bytes_eqb (ls_language s) (get_language l) && forallb (fun s2 => is_nil (get_country (Some s2)) || negb (is_nil (get_modifier (Some s2))) ||
            negb (bytes_eqb (ls_language s) (ls_language s2)) || (lang_match l (Some s) =? lang_match l (Some s2))%Z) languages
       | _ => false end) languages = true) by (intros []; vm_compute; reflexivity).
  specialize (H (cf_ndebug cf)). rewrite forallb_forall in H. specialize (H s I). fold locale in H.
  destruct (get_country (Some s)) as [|c x] eqn:Ec; [contradiction|]. rewrite Mo in H. cbn [is_nil negb orb] in H.
  destruct (C49_lower_case_country cf s I) as (P & _); [congruence|exact Mo|]. cbv zeta in P. rewrite Ec in P. fold locale in P. fold own in P.
  pose proof (C104_own_name cf s2 I2) as P2. fold other in P2.
  destruct (from_env (cf_ndebug cf) locale) as [l|?|?| |]; try discriminate H. exists l. split; [reflexivity|]. split; [exact P|]. split; [exact P2|].
  apply andb_true_iff in H as [H1 H2]. apply bytes_eqb_eq in H1. rewrite forallb_forall in H2. specialize (H2 s2 I2).
  destruct (get_country (Some s2)) as [|c2 x2]; [contradiction|]. rewrite Mo2, E, bytes_eqb_refl in H2. cbn [is_nil negb orb] in H2.
  apply Z.eqb_eq in H2.
  assert (R : forall f, In f [own; other] -> rating cf l f = lang_match l (Some s)).
  { intros f [<-|[<-|[]]]; unfold rating; [now rewrite P|now rewrite P2]. }
  split; (split; [cbn; tauto|]); (split; [eexists; split; [eassumption|congruence]|]); intros g Ig; rewrite !R by (cbn; tauto); lia.
Qed.
Example C105_lower_case_nonvacuous :
  exists s s2, Some s = lang (bs "zh_TW") /\ Some s2 = lang (bs "zh_CN") /\ In s languages /\ In s2 languages /\
    ls_language s = ls_language s2 /\ get_country (Some s) = bs "TW" /\ get_modifier (Some s) = [] /\
    get_country (Some s2) = bs "CN" /\ get_modifier (Some s2) = [] /\ from_env true (bs "zh_tw") = Ret (lang (bs "zh")).
Proof.
  pose proof (lang_known (bs "zh_TW")) as K. pose proof (lang_known (bs "zh_CN")) as K2.
  assert (X : lang (bs "zh_TW") <> None /\ lang (bs "zh_CN") <> None /\ get_language (lang (bs "zh_TW")) = get_language (lang (bs "zh_CN")) /\
    get_country (lang (bs "zh_TW")) = bs "TW" /\ get_modifier (lang (bs "zh_TW")) = [] /\
    get_country (lang (bs "zh_CN")) = bs "CN" /\ get_modifier (lang (bs "zh_CN")) = [] /\ from_env true (bs "zh_tw") = Ret (lang (bs "zh")))
    by (repeat split; try (vm_compute; reflexivity); vm_compute; discriminate).
  destruct (lang (bs "zh_TW")) as [s|], (lang (bs "zh_CN")) as [s2|]; try (now destruct X as (X & _)); try (now destruct X as (_ & X & _)).
  exists s, s2. split; [reflexivity|]. split; [reflexivity|]. split; [exact K|]. split; [exact K2|]. exact (proj2 (proj2 X)).
Qed.

(** The same two files, Austrian and Swiss, in two orders, asked for German: the answers differ. *)
Definition german (files : list bytes) : file_system := {|
  fs_dir := fun _ => Ret files;
  fs_file := fun n => Ret (Some (stream_of (if bytes_eqb n (bs "d/de_AT.po")
    then q (bs "msgid `bag`") ++ c_lf :: q (bs "msgstr `Sackerl`") ++ [c_lf; c_lf]
    else q (bs "msgid `bag`") ++ c_lf :: q (bs "msgstr `Sack`") ++ [c_lf; c_lf]))) |}.
Example C105_order_decides_nonvacuous :
  let at_ := bs "de_AT.po" in let ch := bs "de_CH.po" in let k := (None, bs "bag") in
  fits_best ex_run de [at_; ch] at_ /\ fits_best ex_run de [at_; ch] ch /\
  (exists m d, returns ex_run (german [at_; ch]) (fresh ex_run (german [at_; ch]) utf8 [bs "d"]) de m d /\ form0 d k = Some (bs "Sackerl")) /\
  (exists m d, returns ex_run (german [ch; at_]) (fresh ex_run (german [ch; at_]) utf8 [bs "d"]) de m d /\ form0 d k = Some (bs "Sack")).
Proof.
  split; [|split; [|split]].
  - split; [now left|]. split; [eexists; split; vm_compute; reflexivity|]. intros g [<-|[<-|[]]]; vm_compute; discriminate.
  - split; [right; now left|]. split; [eexists; split; vm_compute; reflexivity|]. intros g [<-|[<-|[]]]; vm_compute; discriminate.
  - eexists. eexists. split; [eexists; split; vm_compute; reflexivity|vm_compute; reflexivity].
  - eexists. eexists. split; [eexists; split; vm_compute; reflexivity|vm_compute; reflexivity].
Qed.
(** A session in which de_AT (and so de) is wanted, on a directory decisive for both. *)
Definition loading (fs : file_system) : list (file_system * mop) :=
  [(fs, OpAddDirectory (bs "d") false); (fs, OpGetLanguages); (fs, OpGetDictionaryLang de_AT)].
Example C105_nonvacuous :
  let a := [bs "de_AT.po"; bs "klingon.po"; bs "de.po"] in let b := [bs "de.po"; bs "de_AT.po"; bs "klingon.po"] in
  reordered (german a) (german b) /\ tidy ex_run a /\ (forall l, wanted ex_run (loading (german a)) l -> decisive ex_run l a) /\
  List.length (m_heap (snd (answers ex_run (loading (german a)) (new_manager utf8)))) = 2.
Proof.
  split; [|split; [|split; [|vm_compute; reflexivity]]].
  - split; [reflexivity|]. intro p. cbn [german fs_dir]. eexists. split; [reflexivity|].
    apply perm_trans with [bs "de_AT.po"; bs "de.po"; bs "klingon.po"]; [constructor; constructor|constructor].
  - intros f Hf. split; [repeat (destruct Hf as [<-|Hf]; [vm_compute; reflexivity|]); destruct Hf|intro S; discriminate S].
  - assert (X : forall l, l = de_AT \/ l = de -> decisive ex_run l [bs "de_AT.po"; bs "klingon.po"; bs "de.po"]).
    { intros l [-> | ->] f g (If & _ & Bf) (Ig & _ & Bg).
      - specialize (Bf (bs "de_AT.po") (or_introl eq_refl)). specialize (Bg (bs "de_AT.po") (or_introl eq_refl)).
        repeat (destruct If as [<-|If]; [|]); try (destruct If); repeat (destruct Ig as [<-|Ig]; [|]); try (destruct Ig); try reflexivity;
          vm_compute in Bf, Bg; exfalso; first [now apply Bf|now apply Bg].
      - specialize (Bf (bs "de.po") (or_intror (or_intror (or_introl eq_refl)))). specialize (Bg (bs "de.po") (or_intror (or_intror (or_introl eq_refl)))).
        repeat (destruct If as [<-|If]; [|]); try (destruct If); repeat (destruct Ig as [<-|Ig]; [|]); try (destruct Ig); try reflexivity;
          vm_compute in Bf, Bg; exfalso; first [now apply Bf|now apply Bg]. }
    intros l (x & l0 & Ix & P & L). apply X.
    assert (l0 = de_AT) as ->.
    { repeat (destruct Ix as [<-|Ix]; [destruct P as [P|P]; cbn [snd] in P; try discriminate P; now injection P as <-|]). destruct Ix. }
    destruct L as [->|L]; [now left|right]. assert (Y : from_spec (cf_ndebug ex_run) (get_language de_AT) [] [] = Ret de) by (vm_compute; reflexivity).
    rewrite Y in L. now injection L as <-.
Qed.

Print Assumptions C105_the_order_is_irrelevant.
Print Assumptions C105_get_languages.
Print Assumptions C105_the_order_decides.
Print Assumptions C105_one_exact_file_is_decisive.
Print Assumptions C105_lower_case_locale.
