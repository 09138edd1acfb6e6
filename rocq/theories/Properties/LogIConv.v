(** Properties C38-C41 (class IConv) and C51 (class Log). *)
From Verif.Model Require Import Base Log IConv.
From Verif.Spec Require Import LogSpec IConvSpec.
From Verif.Proofs Require Import BaseFacts IConvProofs.
Local Open Scope list_scope.

(** C51 *)
Theorem C51_log_callbacks :
  forall ops : list log_op, snd (log_run log_default ops) = owed [] ops.
Proof. intros. apply log_run_owed. intros []; reflexivity. Qed.

(** The messages named in the other properties: log_info, log_warning and log_error of a
    text reach the callback in force for their level, once, with the text and a newline. *)
Theorem C51_messages :
  forall (ops : list log_op) (text : bytes),
  let c := fst (log_run log_default ops) in
  let call l := match in_force l ops (Some 0) with Some cb => [(cb, text ++ [chr 10])] | None => [] end in
  deliver c (log_info text) = call LInfo /\
  deliver c (log_warning text) = call LWarning /\
  deliver c (log_error text) = call LError.
Proof.
  intros ops text c call.
  assert (H : forall l, callback_of c l = in_force l ops (Some 0)).
  { unfold c. assert (G : forall ops past c0, (forall l, callback_of c0 l = in_force l past (Some 0)) ->
      forall l, callback_of (fst (log_run c0 ops)) l = in_force l (past ++ ops) (Some 0)).
    { induction ops0 as [|op o IH]; intros past c0 H l; cbn [log_run fst]; [now rewrite app_nil_r|].
      destruct (log_step c0 op) as [c1 i1] eqn:E. specialize (IH (past ++ [op]) c1). rewrite <- app_assoc in IH. cbn [app] in IH.
      destruct (log_run c1 o) as [c2 i2]. cbn [fst] in *. apply IH. intro l'. rewrite in_force_app. specialize (H l').
      destruct op as [cb|cb|cb|lv ps]; cbn [log_step] in E; [inversion E; subst; destruct l'; cbn in *; auto ..|].
      destruct (callback_of c0 lv); inversion E; subst; auto. }
    intro l. apply (G ops [] log_default). intros []; reflexivity. }
  unfold deliver, call. rewrite <- !H.
  repeat split; unfold log_step, log_info, log_warning, log_error; cbn [lg_level lg_text];
    (destruct (callback_of c _); reflexivity).
Qed.

Example C51_nonvacuous :
  snd (log_run log_default
         [ Stmt LInfo [bs "a"; bs "b"]; SetInfo None; Stmt LInfo [bs "lost"]; SetError (Some 7);
           Stmt LError [bs "x"]; Stmt LWarning [bs "w"] ])
  = [(0, bs "ab"); (7, bs "x"); (0, bs "w")].
Proof. reflexivity. Qed.

(** C38 *)
Theorem C38_equal_charsets_identity :
  forall (I : iconv_impl) (c : iconv I) (from to : bytes),
  List.map toupper from = List.map toupper to ->
  exists c' ev,
    set_charsets false c from to = (Ret tt, c', ev) /\ (forall id, ~ In (EvOpen id) ev) /\
    forall ndebug text, convert ndebug c' text = (Ret text, c', []).
Proof.
  intros. destruct (set_charsets_equal I c from to H) as (c' & E & N). exists c', (close_events (cv_cd c)).
  split; auto. split.
  - intros id. destruct (cv_cd c); simpl; intuition congruence.
  - intros. now apply convert_null.
Qed.

Theorem C38_no_charsets_identity :
  forall (I : iconv_impl) ndebug text, convert ndebug (iconv_new I) text = (Ret text, iconv_new I, []).
Proof. intros. reflexivity. Qed.

Example C38_nonvacuous : List.map toupper (bs "utf-8") = List.map toupper (bs "UTF-8").
Proof. reflexivity. Qed.

(** C39. For every stateless conversion that makes at most 4 bytes out of each input
    byte: all of a valid text is converted; of an invalid text exactly the valid
    prefix is, and an error is logged. The buffer assertion never fires. *)
Theorem C39_conversion_exact :
  forall (step : stepper) (ndebug started : bool) (to from : bytes) (id next : nat) (text : bytes),
  stepper_ok step ->
  let I := iconv_of [] step in
  let c := Build_iconv I to from (CdOpen (I := I) id started) next in
  exists c' ev,
    convert ndebug c text = (Ret (fst (conversion step text)), c', ev) /\
    (snd (conversion step text) = true -> ev = [EvUse id]) /\
    (snd (conversion step text) = false ->
       ev = [EvUse id; EvReset id;
             EvLog (log_error (bs "error: tinygettext:iconv: invalid multibyte sequence in:  " ++ [c_dq] ++ text ++ [c_dq]))]).
Proof.
  intros step nd started to from id next text OK I c. unfold convert, c. cbn [cv_cd].
  assert (E : exists s', ic_conv I started text (4 * length text) =
     (s', fst (conversion step text), if snd (conversion step text) then None else Some EILSEQ)).
  { unfold I, iconv_of, conversion. cbn [ic_conv]. destruct text as [|x text]; [simpl; eauto|].
    set (t := x :: text). change (is_nil t) with false. cbv iota.
    rewrite (conv_loop_ok step OK (length t) t [] (4 * length t)) by lia. cbn [length].
    change (0 <=? 4 * length t) with true. rewrite Nat.sub_0_r. rewrite (conv_loop_ok step OK) by lia.
    destruct started; simpl; eauto. }
  destruct E as [s' E]. rewrite E. destruct (snd (conversion step text)).
  - do 2 eexists. split; [reflexivity|]. split; [reflexivity|discriminate].
  - do 2 eexists. split; [reflexivity|]. split; [discriminate|]. intros _. reflexivity.
Qed.

(** For any iconv implementation whatever: success and invalid input return exactly
    the bytes iconv produced. *)
Theorem C39_result_is_iconv_output :
  forall (I : iconv_impl) (ndebug : bool) (to from : bytes) (id next : nat) (st : ic_state I) (text : bytes)
         (st' : ic_state I) (out : bytes) (err : option errno),
  ic_conv I st text (4 * length text) = (st', out, err) ->
  (err = None \/ err = Some EILSEQ \/ err = Some EINVAL) ->
  fst (fst (convert ndebug (Build_iconv I to from (CdOpen id st) next) text)) = Ret out.
Proof.
  intros I nd to from id next st text st' out err E H. unfold convert. cbn [cv_cd]. rewrite E.
  destruct H as [-> | [-> | ->]]; reflexivity.
Qed.

(** ... also of one text after another: a text is converted from where the one before left the
    descriptor, or from the reset state if that one was invalid. *)
Theorem C39_one_text_after_another :
  forall (I : iconv_impl) (ndebug : bool) (to from : bytes) (id next : nat) (st : ic_state I) (texts outs : list bytes),
  in_turn I st texts outs ->
  convert_all ndebug (Build_iconv I to from (CdOpen id st) next) texts = List.map Ret outs.
Proof.
  intros I nd to from id next st texts outs H.
  induction H as [|st text texts st' out outs E _ IH|st text texts st' out e outs E H _ IH]; [reflexivity| |];
    cbn [convert_all List.map]; unfold convert at 1; cbn [cv_cd cv_to cv_from cv_next]; rewrite E.
  - now rewrite IH.
  - destruct H as [-> | ->]; now rewrite IH.
Qed.
Print Assumptions C39_one_text_after_another.

(** ISO-8859-1 to UTF-8 is such a conversion. *)
Definition latin1_to_utf8 : stepper := fun t =>
  match t with
  | [] => None
  | c :: _ => if (code c <? 128)%N then Some (1, [c])
              else Some (1, [chr (192 + code c / 64); chr (128 + code c mod 64)])
  end.
(** and so is ASCII to anything that rejects bytes above 127 *)
Definition ascii_only : stepper := fun t =>
  match t with [] => None | c :: _ => if hi c then None else Some (1, [c]) end.

Example C39_nonvacuous :
  stepper_ok latin1_to_utf8 /\ stepper_ok ascii_only /\
  conversion latin1_to_utf8 [chr 65; chr 228] = ([chr 65; chr 195; chr 164], true) /\
  in_turn (iconv_of (bs "^") ascii_only) false [bs "ab"; bs "cd" ++ [chr 228]; bs "ef"] [bs "^ab"; bs "cd"; bs "^ef"] /\
  conversion ascii_only [chr 65; chr 228; chr 66] = ([chr 65], false).
Proof.
  split; [|split; [|split; [reflexivity|split; [|reflexivity]]]].
  - intros [|c t] n out N H; [easy|]. simpl in H. destruct (code c <? 128)%N; inversion H; subst; simpl; lia.
  - intros [|c t] n out N H; [easy|]. simpl in H. destruct (hi c); inversion H; subst; simpl; lia.
  - eapply turn_whole; [reflexivity|]. eapply turn_invalid; [reflexivity|now left|]. eapply turn_whole; [reflexivity|]. apply turn_none.
Qed.

(** C40. If every iconv_open in the life of an object succeeds, descriptors are
    closed exactly once and used only while open. *)
Lemma iconv_life_ok : forall I nd calls (c : iconv I) tr,
  (forall f t, In (SetCharsets f t) calls -> openable I f t) ->
  cv_cd c <> CdInvalid -> disciplined None 0 tr = Some (cd_open c, cv_next c) ->
  let st := fold_left (iconv_step false nd) calls (c, tr) in
  cv_cd (fst st) <> CdInvalid /\ disciplined None 0 (snd st) = Some (cd_open (fst st), cv_next (fst st)).
Proof.
  intros I nd. induction calls as [|k calls IH]; intros c tr OK NI D; simpl; auto.
  assert (OK' : forall f t, In (SetCharsets f t) calls -> openable I f t) by (intros; apply OK; now right).
  destruct k as [f t|t]; simpl.
  - destruct (set_charsets false c f t) as [[o c'] ev] eqn:E.
    pose proof (OK f t (or_introl eq_refl)) as [st0 ST].
    assert (G : o = Ret tt /\ cv_cd c' <> CdInvalid).
    { unfold set_charsets in E. simpl in E. destruct (bytes_eqb _ _); [|rewrite ST in E]; inversion E; subst;
        simpl; split; auto; discriminate. }
    destruct G as [-> NI']. pose proof (set_charsets_disciplined _ _ _ _ _ _ _ _ E NI ltac:(discriminate)) as (X & _ & _).
    simpl. apply IH; auto. rewrite disciplined_app, D. auto.
  - destruct (convert nd c t) as [[o c'] ev] eqn:E.
    destruct (convert_disciplined _ _ _ _ _ _ _ E NI) as (X1 & X2 & X3 & X4).
    simpl. apply IH; auto. rewrite disciplined_app, D. auto.
Qed.

Theorem C40_descriptors_disciplined :
  forall (I : iconv_impl) (ndebug : bool) (calls : list iconv_call),
  (forall f t, In (SetCharsets f t) calls -> openable I f t) ->
  exists n, disciplined None 0 (iconv_life I false ndebug calls) = Some (None, n).
Proof.
  intros I nd calls OK. unfold iconv_life.
  destruct (iconv_life_ok I nd calls (iconv_new I) [] OK ltac:(discriminate) eq_refl) as [NI D].
  eexists. rewrite disciplined_app, D. unfold iconv_destroy. rewrite close_disciplined by auto. reflexivity.
Qed.

(** ... and as soon as one fails and the object is destroyed next, the invalid
    descriptor is closed. *)
Theorem C40_violation_close_of_invalid_descriptor :
  forall (I : iconv_impl) (ndebug : bool) (calls : list iconv_call) (from to : bytes),
  List.map toupper from <> List.map toupper to -> ~ openable I from to ->
  In (EvClose None) (iconv_life I false ndebug (calls ++ [SetCharsets from to])).
Proof.
  intros I nd calls f t NE NO. unfold iconv_life. rewrite fold_left_app. simpl.
  destruct (fold_left (iconv_step false nd) calls (iconv_new I, [])) as [c tr]. simpl.
  destruct (set_charsets false c f t) as [[o c'] ev] eqn:E.
  assert (X : cv_cd c' = CdInvalid).
  { unfold set_charsets in E. simpl in E. destruct (bytes_eqb_spec (List.map toupper t) (List.map toupper f)); [congruence|].
    destruct (ic_open I _ _) as [s|[e txt]] eqn:O; inversion E; subst; auto. exfalso. apply NO. eexists; eauto. }
  simpl. unfold iconv_destroy. rewrite X. apply in_app_iff. right. now left.
Qed.

Example C40_nonvacuous :
  let I := {| ic_state := unit;
              ic_open := fun to from => if bytes_eqb from (bs "ISO-8859-1") then inl tt else inr (EINVAL, []);
              ic_conv := fun s t _ => (s, t, None); ic_reset := fun s => s |} in
  openable I (bs "iso-8859-1") (bs "UTF-8") /\ ~ openable I (bs "KLINGON") (bs "UTF-8") /\
  iconv_life I false false [SetCharsets (bs "iso-8859-1") (bs "UTF-8"); Convert (bs "x"); SetCharsets (bs "KLINGON") (bs "UTF-8")]
  = [EvOpen 0; EvUse 0; EvClose (Some 0); EvClose None].
Proof.
  split; [eexists; reflexivity|]. split; [intros [st H]; vm_compute in H; discriminate|]. vm_compute. reflexivity.
Qed.

(** C41. A four-byte mark makes the buffer too small for every one-character text of
    one byte. *)
Theorem C41_buffer_too_small :
  forall (step : stepper) (mark : bytes) (x : byte) (o : bytes) (to from : bytes) (id next : nat),
  length mark = 4 -> step [x] = Some (1, o) -> o <> [] ->
  let I := iconv_of mark step in
  let c := Build_iconv I to from (CdOpen (I := I) id false) next in
  fst (fst (convert false c [x])) = AssertFail /\ fst (fst (convert true c [x])) = Ret mark.
Proof.
  intros step mark x o to from id next HM HS NE I c.
  assert (E : ic_conv I false [x] (4 * @length ascii [x]) = (true, mark, Some E2BIG)).
  { unfold I, iconv_of. cbn [ic_conv is_nil length]. rewrite HM. cbn [Nat.leb Nat.mul Nat.add Nat.sub conv_loop].
    rewrite HS. destruct o; [easy|]. cbn. reflexivity. }
  split; unfold convert, c; cbn [cv_cd]; rewrite E; reflexivity.
Qed.

(** With any mark that fits, converting the same non-empty text twice gives two
    different results. *)
Theorem C41_conversion_not_repeatable :
  forall (step : stepper) (mark text : bytes) (to from : bytes) (id next : nat) (ndebug : bool),
  stepper_ok step -> mark <> [] -> text <> [] -> snd (conversion step text) = true ->
  (forall t n o, t <> [] -> step t = Some (n, o) -> length mark + length o <= 4 * n) ->
  let I := iconv_of mark step in
  let c := Build_iconv I to from (CdOpen (I := I) id false) next in
  exists r1 c1 e1 r2 c2 e2,
    convert ndebug c text = (Ret r1, c1, e1) /\ convert ndebug c1 text = (Ret r2, c2, e2) /\
    r1 = mark ++ r2 /\ r1 <> r2.
Proof.
  intros step mark text to from id next nd OK NM NT V BND I c.
  assert (L : forall fuel t out cap, length t <= fuel ->
    (t = [] \/ 4 * length t <= length mark + cap) ->
    conv_loop step fuel t out cap =
    (out ++ fst (converted step fuel t), if snd (converted step fuel t) then None else Some EILSEQ)).
  { induction fuel as [|f IH]; intros t out cap HF HC; simpl; [now rewrite app_nil_r|].
    destruct t as [|y t]; [simpl; now rewrite app_nil_r|].
    destruct HC as [HC|HC]; [discriminate|].
    destruct (step (y :: t)) as [[n o]|] eqn:E; simpl; [|now rewrite app_nil_r].
    destruct (OK (y :: t) n o ltac:(discriminate) E) as [B1 B2].
    pose proof (BND (y :: t) n o ltac:(discriminate) E) as B3.
    destruct (Nat.leb_spec (length o) cap); [|simpl in *; lia].
    rewrite IH.
    - destruct (converted step f (skipn n (y :: t))) as [r b]. simpl. now rewrite app_assoc.
    - rewrite skipn_length. cbn [length] in *. lia.
    - right. rewrite skipn_length in *. cbn [length] in *. lia. }
  assert (C1 : ic_conv I false text (4 * length text) = (true, mark ++ fst (conversion step text), None)).
  { unfold I, iconv_of. cbn [ic_conv]. destruct text as [|x text]; [easy|]. set (t := x :: text) in *.
    change (is_nil t) with false. cbv iota.
    assert (length mark <= 4 * length t).
    { destruct (step t) as [[n o]|] eqn:E.
      - pose proof (BND t n o ltac:(discriminate) E). destruct (OK t n o ltac:(discriminate) E). lia.
      - exfalso. unfold conversion in V. unfold t in V, E. cbn [length converted] in V. rewrite E in V. discriminate. }
    destruct (Nat.leb_spec (length mark) (4 * length t)); [|lia].
    rewrite L; [|lia|right; lia]. fold (conversion step t). rewrite V. reflexivity. }
  assert (C2 : ic_conv I true text (4 * length text) = (true, fst (conversion step text), None)).
  { unfold I, iconv_of. cbn [ic_conv]. destruct text as [|x text]; [easy|]. set (t := x :: text) in *.
    change (is_nil t) with false. cbv iota.
    rewrite (conv_loop_ok step OK) by lia. fold (conversion step t). rewrite V. reflexivity. }
  exists (mark ++ fst (conversion step text)). do 2 eexists. exists (fst (conversion step text)). do 2 eexists.
  split; [unfold convert, c; cbn [cv_cd]; rewrite C1; reflexivity|].
  split; [unfold convert; cbn [cv_cd]; rewrite C2; reflexivity|].
  split; [reflexivity|]. intros X. apply (f_equal (@length _)) in X. rewrite app_length in X.
  destruct mark; [easy|simpl in X; lia].
Qed.

(** Latin-1 to UTF-16 with byte-order mark meets these hypotheses; so does Latin-1
    to UTF-32 for the first theorem. *)
Definition latin1_to_utf16 : stepper := fun t =>
  match t with [] => None | c :: _ => Some (1, [c_nul; c]) end.
Definition latin1_to_utf32 : stepper := fun t =>
  match t with [] => None | c :: _ => Some (1, [c_nul; c_nul; c_nul; c]) end.

Example C41_nonvacuous :
  stepper_ok latin1_to_utf16 /\
  (forall t n o, t <> [] -> latin1_to_utf16 t = Some (n, o) ->
     length [chr 254; chr 255] + length o <= 4 * n) /\
  snd (conversion latin1_to_utf16 (bs "ab")) = true /\
  latin1_to_utf32 [chr 65] = Some (1, [c_nul; c_nul; c_nul; chr 65]).
Proof.
  split; [|split; [|split]]; try reflexivity.
  - intros [|c t] n o N H; [easy|]. inversion H; subst. simpl. lia.
  - intros [|c t] n o N H; [easy|]. inversion H; subst. simpl. lia.
Qed.

Print Assumptions C51_log_callbacks.
Print Assumptions C51_messages.
Print Assumptions C38_equal_charsets_identity.
Print Assumptions C39_conversion_exact.
Print Assumptions C39_result_is_iconv_output.
Print Assumptions C40_descriptors_disciplined.
Print Assumptions C40_violation_close_of_invalid_descriptor.
Print Assumptions C41_buffer_too_small.
Print Assumptions C41_conversion_not_repeatable.

Print Assumptions C38_no_charsets_identity.
