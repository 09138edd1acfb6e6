(** Property C99: the build with SDL's conversions. *)
From Verif.Model Require Import Base Log PluralForms Dictionary IConv Stream PoParser Sdl.
From Verif.Spec Require Import IConvSpec PoSpec ParserSpec SdlSpec.
From Verif.Proofs Require Import BaseFacts ParserUnary TwoConverters.
From Verif.Proofs Require Import IConvProofs.
From Verif.Properties Require Import Parser.
Local Open Scope list_scope.

(** Whatever SDL does, IConv in that build behaves as if an iconv were installed that
    reports what [seen] reports: everything proved about all iconv implementations
    holds in that build too. *)
Theorem C99_sdl_is_an_iconv :
  forall (S : sdl_impl) (ndebug : bool) (c : iconv (seen S)) (text : bytes),
  convert_sdl ndebug c text = convert ndebug c text.
Proof.
  intros S nd [to from [| |id st] n] text; [reflexivity..|]. unfold convert_sdl, convert. cbn [cv_cd cv_to cv_from cv_next seen ic_conv ic_state ic_reset].
  destruct (sd_conv S st text (4 * length text)) as [[[st' out] ret] e].
  destruct (ret =? 18446744073709551615)%Z; [|reflexivity]. destruct e; reflexivity.
Qed.
Print Assumptions C99_sdl_is_an_iconv.

(** One conversion, with iconv and with SDL on top of that iconv, when iconv stops in the middle
    because of an invalid or incomplete character: with iconv an error is logged and the
    descriptor reset; with SDL nothing happens but that the text is cut off, and the next
    text is converted from wherever the descriptor stopped. *)
Theorem C99_violation_failure_is_silent :
  forall (I : iconv_impl) n (ndebug : bool) to from id st next text st' out e,
  ic_conv I st text (4 * length text) = (st', out, Some e) -> e = EILSEQ \/ e = EINVAL ->
  convert ndebug {| cv_to := to; cv_from := from; cv_cd := CdOpen (I := I) id st; cv_next := next |} text =
    (Ret out, {| cv_to := to; cv_from := from; cv_cd := CdOpen (I := I) id (ic_reset I st'); cv_next := next |},
     [EvUse id; EvReset id; EvLog (log_error (bs "error: tinygettext:iconv: invalid multibyte sequence in:  " ++ [c_dq] ++ text ++ [c_dq]))]) /\
  convert_sdl (S := sdl_over I n) ndebug {| cv_to := to; cv_from := from; cv_cd := CdOpen (I := seen (sdl_over I n)) id st; cv_next := next |} text =
    (Ret out, {| cv_to := to; cv_from := from; cv_cd := CdOpen (I := seen (sdl_over I n)) id st'; cv_next := next |}, [EvUse id]).
Proof.
  intros I n nd to from id st next text st' out e E He.
  unfold convert_sdl, convert. cbn [cv_cd cv_to cv_from cv_next sdl_over seen sd_conv sd_state sd_reset ic_conv]. rewrite E.
  destruct He as [-> | ->]; split; reflexivity.
Qed.
Print Assumptions C99_violation_failure_is_silent.

(** The four codes of SDL_stdinc.h: (size_t)-1 to (size_t)-4; only the first is what iconv.cpp asks for. *)
Theorem C99_codes :
  forall (I : iconv_impl) n st text cap st' out e,
  ic_conv I st text cap = (st', out, Some e) ->
  exists e', sd_conv (sdl_over I n) st text cap =
    (st', out, (2 ^ 64 - match e with E2BIG => 2 | EILSEQ => 3 | EINVAL => 4 | _ => 1 end)%Z, e').
Proof. intros I n st text cap st' out e E. unfold sdl_over. cbn [sd_conv]. rewrite E. destruct e; eexists; reflexivity. Qed.
Print Assumptions C99_codes.

(** ... and when the room does not suffice, which the other build holds to be impossible *)
Theorem C99_violation_full_buffer_is_silent :
  forall (I : iconv_impl) n to from id st next text st' out,
  ic_conv I st text (4 * length text) = (st', out, Some E2BIG) ->
  fst (fst (convert false {| cv_to := to; cv_from := from; cv_cd := CdOpen (I := I) id st; cv_next := next |} text)) = AssertFail /\
  convert_sdl (S := sdl_over I n) false {| cv_to := to; cv_from := from; cv_cd := CdOpen (I := seen (sdl_over I n)) id st; cv_next := next |} text =
    (Ret out, {| cv_to := to; cv_from := from; cv_cd := CdOpen (I := seen (sdl_over I n)) id st'; cv_next := next |}, [EvUse id]).
Proof.
  intros I n to from id st next text st' out E.
  unfold convert_sdl, convert. cbn [cv_cd cv_to cv_from cv_next sdl_over seen sd_conv sd_state sd_reset ic_conv]. rewrite E.
  split; reflexivity.
Qed.
Print Assumptions C99_violation_full_buffer_is_silent.

(** Where iconv succeeds, so does SDL, with the same result. *)
Theorem C99_success_is_the_same :
  forall (I : iconv_impl) n (ndebug : bool) to from id st next text st' out,
  counts n ->
  ic_conv I st text (4 * length text) = (st', out, None) ->
  convert ndebug {| cv_to := to; cv_from := from; cv_cd := CdOpen (I := I) id st; cv_next := next |} text =
    (Ret out, {| cv_to := to; cv_from := from; cv_cd := CdOpen (I := I) id st'; cv_next := next |}, [EvUse id]) /\
  convert_sdl (S := sdl_over I n) ndebug {| cv_to := to; cv_from := from; cv_cd := CdOpen (I := seen (sdl_over I n)) id st; cv_next := next |} text =
    (Ret out, {| cv_to := to; cv_from := from; cv_cd := CdOpen (I := seen (sdl_over I n)) id st'; cv_next := next |}, [EvUse id]).
Proof.
  intros I n nd to from id st next text st' out N E.
  unfold convert_sdl, convert. cbn [cv_cd cv_to cv_from cv_next sdl_over seen sd_conv sd_state sd_reset ic_conv]. rewrite E.
  split; [reflexivity|]. specialize (N st text (4 * length text)).
  destruct (Z.eqb_spec (n st text (4 * length text)) 18446744073709551615); [lia|reflexivity].
Qed.
Print Assumptions C99_success_is_the_same.

(** Parsing any file in the two builds: the same dictionary, the same outcome, the same log
    but for the complaints about text that could not be converted, all of which are missing. *)
Lemma silenced_app a b a' b' : silenced a b -> silenced a' b' -> silenced (a ++ a') (b ++ b').
Proof. intros H H'. induction H; cbn [app]; [exact H'|now constructor|now constructor]. Qed.
Lemma silenced_same es : (forall e id, In e es -> e <> EvReset id) -> silenced es es.
Proof. induction es as [|e es IH]; intro H; constructor; [intro id; apply H; now left|]. apply IH. intros e' id He. apply H. now right. Qed.
Lemma silenced_clean a b : silenced a b -> forall id, ~ In (EvReset id) b.
Proof. induction 1 as [|e a b H _ IH|j t a b _ IH]; intros i Hi; [destruct Hi| |exact (IH i Hi)]. destruct Hi as [E|Hi]; [exact (H i E)|exact (IH i Hi)]. Qed.

Section Sdl.
  Variable I : iconv_impl.
  Variable n : ic_state I -> bytes -> nat -> Z.
  Hypothesis N : counts n.
  Variable like : ic_state I -> ic_state I -> Prop.
  Hypothesis L_open : forall to from st, ic_open I to from = inl st -> like st st.
  Hypothesis L : forall st1 st2 text, like st1 st2 ->
      let '(st1', out1, err1) := ic_conv I st1 text (4 * length text) in
      let '(st2', out2, err2) := ic_conv I st2 text (4 * length text) in
      out1 = out2 /\ err1 = err2 /\ (forall e, err1 = Some e -> e = EILSEQ \/ e = EINVAL) /\
      like st1' st2' /\ like (ic_reset I st1') st2'.
  Local Notation J := (seen (sdl_over I n)).

  Definition same_cd (a : cdesc I) (b : cdesc J) : Prop :=
    match a, b with
    | CdNull, CdNull | CdInvalid, CdInvalid => True
    | CdOpen i st, CdOpen j st' => i = j /\ like st st'
    | _, _ => False
    end.
  Definition same_conv (a : iconv I) (b : iconv J) : Prop :=
    cv_to a = cv_to b /\ cv_from a = cv_from b /\ cv_next a = cv_next b /\ same_cd (cv_cd a) (cv_cd b).

  Lemma same_convert nd c1 c0 text : same_conv c1 c0 ->
    let '(o1, c1', ev1) := convert nd c1 text in let '(o0, c0', ev0) := convert nd c0 text in
    o1 = o0 /\ same_conv c1' c0' /\ silenced ev1 ev0.
  Proof.
    destruct c1 as [to from cd1 next], c0 as [to0 from0 cd0 next0]. intros (E1 & E2 & E3 & S). cbn [cv_to cv_from cv_next cv_cd] in *. subst to0 from0 next0.
    destruct cd1 as [| |i st1], cd0 as [| |j st0]; cbn [same_cd] in S; try contradiction; unfold convert; cbn [cv_cd cv_to cv_from cv_next].
    - repeat split; constructor.
    - repeat split; constructor.
    - destruct S as [<- S]. cbn [seen sdl_over ic_conv sd_conv sd_state ic_state sd_reset ic_reset].
      pose proof (L st1 st0 text S) as X. pose proof (N st0 text (4 * length text)) as Nn.
      destruct (ic_conv I st1 text (4 * length text)) as [[st1' out1] err1].
      destruct (ic_conv I st0 text (4 * length text)) as [[st0' out0] err0].
      destruct X as (-> & -> & He & L1 & L2).
      destruct err0 as [e|].
      + destruct (He e eq_refl) as [-> | ->]; cbn;
          (split; [reflexivity|split; [repeat split; exact L2|constructor; [discriminate|do 2 constructor]]]).
      + cbn [fst snd]. destruct (Z.eqb_spec (n st0 text (4 * length text)) 18446744073709551615); [lia|].
        split; [reflexivity|split; [repeat split; exact L1|constructor; [discriminate|constructor]]].
  Qed.
  Lemma same_close a b : same_cd a b -> silenced (close_events a) (close_events b).
  Proof.
    destruct a, b; cbn; try contradiction; intros H; try (constructor; [discriminate|constructor]); try constructor.
    destruct H as [-> _]. constructor; [discriminate|constructor].
  Qed.
  Lemma same_set strict c1 c0 from to : same_conv c1 c0 ->
    let '(o1, c1', ev1) := set_charsets strict c1 from to in let '(o0, c0', ev0) := set_charsets strict c0 from to in
    o1 = o0 /\ same_conv c1' c0' /\ silenced ev1 ev0.
  Proof.
    intro S. assert (C := S). destruct S as (E1 & E2 & E3 & S). unfold set_charsets. pose proof (same_close _ _ S) as Cl.
    destruct (strict && _); [auto|]. destruct (bytes_eqb _ _); [split; [reflexivity|split; [repeat split; exact E3|exact Cl]]|].
    cbn [seen sdl_over ic_open sd_open sd_state ic_state].
    destruct (ic_open I _ _) as [st|[e txt]] eqn:O.
    - split; [reflexivity|split]; [repeat split; cbn; rewrite ?E3; eauto|]. rewrite E3. apply silenced_app; [exact Cl|].
      constructor; [discriminate|constructor].
    - split; [reflexivity|split; [repeat split; exact E3|exact Cl]].
  Qed.
  Lemma parse_same pedantic strict nd f fn i d :
    let r1 := po_parse (with_lib pedantic strict nd f I) fn i d in let r0 := po_parse (with_lib pedantic strict nd f J) fn i d in
    pr_outcome r1 = pr_outcome r0 /\ pr_dict r1 = pr_dict r0 /\ pr_calls r1 = pr_calls r0 /\ pr_lines r1 = pr_lines r0 /\ silenced (pr_trace r1) (pr_trace r0).
  Proof.
    apply (parse_two I J pedantic strict nd f fn same_conv silenced).
    - intros *. apply silenced_app.
    - intro ls. apply silenced_same. intros e id H. apply in_map_iff in H as (l & <- & _). discriminate.
    - intros *. apply same_convert.
    - intros *. apply same_set.
    - repeat split.
    - intros c1 c0 (_ & _ & _ & H). now apply same_close.
  Qed.
End Sdl.

Theorem C99_parsing_with_sdl :
  forall (I : iconv_impl) n (cf : config) (fn : bytes) (i : istream) (d : dictionary),
  counts n -> memoryless I ->
  let r := po_parse (with_iconv cf I) fn i d in
  let s := po_parse (with_iconv cf (seen (sdl_over I n))) fn i d in
  pr_outcome s = pr_outcome r /\ pr_dict s = pr_dict r /\
  silenced (pr_trace r) (pr_trace s) /\ (forall id, ~ In (EvReset id) (pr_trace s)).
Proof.
  intros I n cf fn i d N (like & R & L) r s.
  destruct (parse_same I n N like R L (cf_pedantic cf) (cf_strict cf) (cf_ndebug cf) (cf_fuel cf) fn i d) as (A & B & _ & _ & T).
  change (po_parse (with_lib _ _ _ _ I) fn i d) with r in *. change (po_parse (with_lib _ _ _ _ _) fn i d) with s in *.
  repeat split; auto. now apply (silenced_clean _ _ T).
Qed.
Print Assumptions C99_parsing_with_sdl.

(** The hypothesis holds of every iconv that offers conversions character by character making
    at most four bytes of each byte. *)
Definition table (tab : bytes -> bytes -> option stepper) : iconv_impl := {|
  ic_state := stepper;
  ic_open := fun to from => match tab from to with Some step => inl step | None => inr (EINVAL, []) end;
  ic_conv := fun step text cap => (step, fst (conv_loop step (length text) text [] cap), snd (conv_loop step (length text) text [] cap));
  ic_reset := fun step => step |}.
Theorem C99_memoryless_tables :
  forall tab, (forall from to step, tab from to = Some step -> stepper_ok step) -> memoryless (table tab).
Proof.
  intros tab H. exists (fun a b => a = b /\ stepper_ok a). split.
  - intros to from st E. cbn [table ic_open] in E. destruct (tab from to) as [s|] eqn:T; [|discriminate]. injection E as <-. split; [reflexivity|exact (H _ _ _ T)].
  - intros st st2 text [<- O]. cbn [table ic_conv ic_state ic_reset].
    pose proof (conv_loop_ok st O (length text) text [] (4 * length text)) as X. rewrite X by lia. cbn [fst snd app].
    split; [reflexivity|split; [reflexivity|split; [|split; (split; [reflexivity|exact O])]]]. intros e E. destruct (snd (converted _ _ _)); [discriminate|]. injection E as <-. now left.
Qed.
Print Assumptions C99_memoryless_tables.

(** A file that says it is US-ASCII and is not: both builds store the same cut-off text; with
    iconv one error is logged, with SDL nothing. *)
Definition ascii_only : stepper := fun text => match text with c :: _ => if hi c then None else Some (1, [c]) | [] => None end.
Definition ascii_lib : iconv_impl := table (fun from to => if bytes_eqb from (bs "US-ASCII") && bytes_eqb to (bs "UTF-8") then Some ascii_only else None).
Definition no_ascii : bytes := file [bs "msgid ``"; bs "msgstr `Content-Type: text/plain; charset=us-ascii\n`"; bs ""; bs "msgid `a`"; bs "msgstr `ab" ++ [chr 228] ++ bs "c`"].
Definition sdl_ex (I : iconv_impl) : parse_result := po_parse (with_iconv (with_fuel ex_cf 60) I) (bs "x.po") (stream_of no_ascii) (new_dictionary (bs "UTF-8")).
Definition logged (r : parse_result) : list bytes := flat_map (fun e => match e with EvLog l => [lg_text l] | _ => [] end) (pr_trace r).
Example C99_nonvacuous :
  counts (I := ascii_lib) (fun _ _ _ => 0%Z) /\ memoryless ascii_lib /\
  pr_dict (sdl_ex ascii_lib) = pr_dict (sdl_ex (seen (sdl_over ascii_lib (fun _ _ _ => 0%Z)))) /\
  fst (translate 1 [] (pr_dict (sdl_ex ascii_lib)) (bs "a")) = Ret (bs "ab") /\
  List.length (logged (sdl_ex ascii_lib)) = 1 /\
  logged (sdl_ex (seen (sdl_over ascii_lib (fun _ _ _ => 0%Z)))) = [].
Proof.
  split; [intros st t c; lia|]. split.
  - apply C99_memoryless_tables. intros from to step E. destruct (_ && _); [|discriminate]. injection E as <-.
    intros [|c text] k out Hn E; [now destruct Hn|]. cbn in E. destruct (hi c); [discriminate|]. injection E as <- <-. cbn [length]. lia.
  - repeat split; vm_compute; reflexivity.
Qed.
