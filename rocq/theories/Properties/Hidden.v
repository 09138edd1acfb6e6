(** Property C106: a catalogue without content hides the other files of its directory. *)
From Verif.Model Require Import Base Log PluralForms Dictionary IConv Language Stream PoParser Manager.
From Verif.Spec Require Import DictSpec LangSpec ParserSpec ManagerSpec LoadSpec OrderSpec.
From Verif.Proofs Require Import BaseFacts LangProofs ParserTerm ParserFuel ManagerLoad ManagerOwn ManagerGet ManagerStep ManagerProps.
From Verif.Properties Require Import Parser Manager ManagerLog DirOrder.
Local Open Scope list_scope.

(** the file could not be opened, is empty, or is a directory (reading fails at once) *)
Definition no_content (i : istream) : Prop := is_good i = false \/ i = stream_of [] \/ i = broken_after [].
(** [f] is the one that is chosen: no other fits better, those listed before it fit worse. *)
Definition chosen (cf : config) (l : language) (files : list bytes) (f : bytes) : Prop :=
  exists before after, files = before ++ f :: after /\ fits_best cf l files f /\
    forall g, In g before -> (rating cf l g < rating cf l f)%Z.

Lemma no_content_parse cf fn i d : no_content i ->
  parses_to cf fn i d {| pr_outcome := Ret tt; pr_dict := d; pr_trace := []; pr_calls := []; pr_lines := 1%Z |}.
Proof.
  assert (W : forall n, 2 <= n -> no_content i -> po_parse (with_fuel cf n) fn i d =
    {| pr_outcome := Ret tt; pr_dict := d; pr_trace := []; pr_calls := []; pr_lines := 1%Z |}).
  { intros n L [G|H]; [apply parse_failed_stream; [exact G|lia]|]. destruct n as [|[|n]]; [lia..|].
    destruct H as [-> | ->]; destruct cf, d; vm_compute; reflexivity. }
  intro H. rewrite <- (W 2 (le_n 2) H). apply parses_to_intro. rewrite (W 2 (le_n 2) H). discriminate.
Qed.
Lemma chosen_unique cf l a b a' b' f g :
  a ++ f :: b = a' ++ g :: b' ->
  (forall x, In x a -> (rating cf l x < rating cf l f)%Z) -> (forall x, In x (a ++ f :: b) -> (rating cf l x <= rating cf l f)%Z) ->
  (forall x, In x a' -> (rating cf l x < rating cf l g)%Z) -> (forall x, In x b' -> (rating cf l x <= rating cf l g)%Z) -> f = g.
Proof.
  intros E A AB A' B'.
  assert (Ig : In g (a ++ f :: b)) by (rewrite E; apply in_or_app; right; now left).
  pose proof (AB g Ig) as Lg. clear AB Ig. revert a' E A' . induction a as [|x a IH]; intros [|x' a'] E A'; cbn [app] in E; injection E as E1 E2.
  - exact E1.
  - subst x'. specialize (A' f (or_introl eq_refl)). lia.
  - subst x. specialize (A g (or_introl eq_refl)). assert (If : In f b') by (rewrite <- E2; apply in_or_app; right; now left).
    specialize (B' f If). lia.
  - subst x'. apply (IH (fun y I => A y (or_intror I)) a' E2 (fun y I => A' y (or_intror I))).
Qed.

(** C106 (violation). If the file that fits best cannot be opened, is empty or is a
    directory, the directory contributes nothing, whatever else it holds: no other file is
    tried and nothing is logged about it. And it stays like that, also when the file is
    repaired, until the cache is cleared. *)
Theorem C106_the_other_files_are_hidden :
  forall (cf : config) (fs : file_system) (cs p : bytes) (files : list bytes) (l : language) (f : bytes) (i : istream)
    (m : manager) (d : dictionary),
  known l -> fs_dir fs p = Ret files -> chosen cf l files f ->
  fs_file fs (p ++ bs "/" ++ f) = Ret (Some i) -> no_content i ->
  returns cf fs (fresh cf fs cs [p]) l m d ->
  (forall k, lookup d k = None) /\
  (exists t, m_tr m = notes cf files ++ t /\ (get_country l = [] -> t = [])) /\
  forall fs', returns cf fs' m l m d.
Proof.
  intros cf fs cs p files l f i m d K D (bf & af & E & (If & C & B) & A) Of N (q & R & G).
  assert (ND : NoDup [p]) by (constructor; [intros []|constructor]).
  destruct (fresh_state cf fs cs [p] ND) as (O & _). split; [|split].
  - destruct (C46_best_file cf fs cs p l m d K (ex_intro _ q (conj R G))) as (files' & D' & H). rewrite D in D'. injection D' as <-.
    destruct H as [(_ & H)|(bf' & f' & af' & E' & C' & H1 & H2 & L)]; [exact H|].
    assert (X : f = f').
    { apply (chosen_unique cf l bf af bf' af'); [congruence|exact A|now rewrite <- E|exact H1|exact H2]. }
    subst f'. cbv zeta in L. rewrite Of in L. destruct L as (r & P & L & _). intro k. rewrite L.
    rewrite (parses_to_fun _ _ _ _ _ _ P (no_content_parse cf _ i (new_dictionary cs) N)). cbn [pr_dict]. destruct k as [[c|] x]; reflexivity.
  - destruct (C64_loading cf fs cs [p] l _ m ND K R Logic.I) as (x1 & d1 & t1 & R1 & X). cbn [rev app] in R1.
    assert (Y : x1 = None /\ t1 = notes cf files).
    { assert (Z : forall x d1 t1, dir_reads cf fs l p (new_dictionary cs) x d1 t1 -> x = None /\ t1 = notes cf files); [|].
      - intros x d0 t0 Z. destruct Z as [ex D'|fl D' No|bf' f' af' x d0 t0 D' C' H1 H2 Fr]; rewrite D in D'; [discriminate D'|injection D' as <-|injection D' as E'].
        + now destruct (No f If).
        + assert (W : f = f') by (apply (chosen_unique cf l bf af bf' af'); [congruence|exact A|now rewrite <- E|exact H1|exact H2]).
          subst f'. rewrite <- E'. inversion Fr as [Q|e w Q|Q|j r Q P O2|j r e w Q P O2 _]; subst; rewrite Of in Q; try discriminate Q.
          * injection Q as <-. rewrite (parses_to_fun _ _ _ _ _ _ P (no_content_parse cf _ i (new_dictionary cs) N)). cbn [pr_trace].
            now rewrite app_nil_r.
          * injection Q as <-. rewrite (parses_to_fun _ _ _ _ _ _ P (no_content_parse cf _ i (new_dictionary cs) N)) in O2. discriminate O2.
      - inversion R1; subst; match goal with H : dir_reads _ _ _ _ _ _ _ _ |- _ => destruct (Z _ _ _ H) as [Z1 Z2] end; [|discriminate Z1].
        match goal with H : path_reads _ _ _ [] _ _ _ _ |- _ => inversion H; subst end. now rewrite app_nil_r. }
    destruct Y as [-> ->]. destruct X as [(_ & _ & T)|(Co & b & _ & x2 & d2 & t2 & _ & T & _)].
    + exists []. split; [now rewrite app_nil_r|auto].
    + exists t2. split; [exact T|]. intro Z. now destruct Co.
  - intro fs'. exists q. split; [|exact G].
    destruct (get_inv cf fs (fresh cf fs cs [p]) l O K) as (_ & _ & F).
    rewrite (do_get_lang cf fs l _ K) in R. destruct (get_state cf fs (fresh cf fs cs [p]) l) as [o m'] eqn:S. cbn [fst snd] in *.
    injection R as Ro ->. destruct o as [q'|?|?| |]; try discriminate Ro. injection Ro as ->. specialize (F q eq_refl).
    rewrite (do_get_lang cf fs' l m K). unfold get_state at 1 2, leaf_outcome, leaf_state.
    assert (As : asserts cf l = false).
    { unfold get_state, leaf_outcome in S. destruct l as [s|]; [apply andb_false_r|]. cbn [get_country is_nil] in S. destruct (asserts cf None); [discriminate|reflexivity]. }
    rewrite As, F. destruct (is_nil (get_country l)); reflexivity.
Qed.

(** "de.po" cannot be opened, or is a directory; "de_AT.po" next to it is fine, and would
    be loaded if it were alone. *)
Definition hiding (i : istream) (files : list bytes) : file_system := {|
  fs_dir := fun _ => Ret files;
  fs_file := fun n => Ret (Some (if bytes_eqb n (bs "d/de.po") then i else
    stream_of (q (bs "msgid `bag`") ++ c_lf :: q (bs "msgstr `Sack`") ++ [c_lf; c_lf]))) |}.
Example C106_nonvacuous :
  let files := [bs "de_AT.po"; bs "de.po"] in let k := (None, bs "bag") in
  chosen ex_run de files (bs "de.po") /\ no_content failed_stream /\ no_content (broken_after []) /\
  (exists m d, returns ex_run (hiding failed_stream files) (fresh ex_run (hiding failed_stream files) utf8 [bs "d"]) de m d) /\
  (exists m d, returns ex_run (hiding (broken_after []) files) (fresh ex_run (hiding (broken_after []) files) utf8 [bs "d"]) de m d) /\
  let alone := hiding failed_stream [bs "de_AT.po"] in
  exists m d, returns ex_run alone (fresh ex_run alone utf8 [bs "d"]) de m d /\ form0 d k = Some (bs "Sack").
Proof.
  split; [|split; [now left|split; [right; now right|split; [|split]]]].
  - exists [bs "de_AT.po"], []. split; [reflexivity|]. split; [|intros g [<-|[]]; vm_compute; reflexivity].
    split; [right; now left|]. split; [eexists; split; vm_compute; reflexivity|]. intros g [<-|[<-|[]]]; vm_compute; discriminate.
  - eexists. eexists. eexists. split; vm_compute; reflexivity.
  - eexists. eexists. eexists. split; vm_compute; reflexivity.
  - eexists. eexists. split; [eexists; split; vm_compute; reflexivity|vm_compute; reflexivity].
Qed.

Print Assumptions C106_the_other_files_are_hidden.
