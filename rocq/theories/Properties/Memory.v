(** C86: add_translation when memory runs out. *)
From Coq Require Import Lia.
From Verif.Model Require Import Base Log PluralForms Dictionary Memory.
From Verif.Spec Require Import DictSpec MemorySpec.
From Verif.Proofs Require Import BaseFacts DictProofs MemoryProofs.
Local Open Scope list_scope.

(** With enough memory a call does what the other properties say, and reports it if there is a
    callback. *)
Theorem C86_enough_memory : forall grants room (told : bool) d op,
  (forall n, grants n = true) ->
  add_call grants room told d op =
    (Fine tt, fst (add_translation d op), if told then snd (add_translation d op) else []).
Proof.
  intros grants room told d op L.
  destruct (add_call grants room told d op) as [[f d'] log] eqn:C. apply add_call_cases in C.
  destruct C as (said & LG & C). cbn [ms_log ms_dict app] in LG, C. subst said.
  destruct f as [[]| |]; [|now destruct C as (_ & N & _)|now destruct C as (_ & N & _)].
  destruct C as (D & S1 & S2). rewrite D. f_equal.
  destruct (add_log d op) as [(old & E1 & E2 & E3 & E4)|(NO & E4)]; rewrite E4.
  - assert (OV : overwrites op (lookup d (op_key op)) old) by (repeat split; [exact E1|exact E2|now rewrite E1]).
    destruct S1 as [->|(T & old' & (E1' & _ & _) & (t & u & S & X & Y))].
    + destruct told; [|reflexivity]. now destruct (S2 eq_refl eq_refl old).
    + rewrite T. rewrite S. rewrite E1 in E1'. injection E1' as <-. rewrite (Y L), app_nil_r in X. now subst t.
  - destruct S1 as [->|(T & old' & (E1' & N & O) & _)]; [now destruct told|].
    destruct NO. exists old'. rewrite E1' in O. auto.
Qed.

(** A call that returns has done all its work, however little memory there was: what it logs
    is at worst cut short. *)
Theorem C86_completed : forall grants room told d op d' log,
  add_call grants room told d op = (Fine tt, d', log) ->
  d' = fst (add_translation d op) /\
  (forall k, lookup d' k = spec_add (lookup d) op k) /\
  match snd (add_translation d op) with
  | [] => log = []
  | full => if told then exists t u, log = [{| lg_level := LWarning; lg_text := t |}] /\
                                     full = [{| lg_level := LWarning; lg_text := t ++ u |}]
            else log = []
  end.
Proof.
  intros grants room told d op d' log C. apply add_call_cases in C.
  destruct C as (said & LG & D & S1 & S2). cbn [ms_log ms_dict app] in *. subst said. subst d'.
  split; [reflexivity|]. split; [apply lookup_add|].
  destruct (add_log d op) as [(old' & E1 & E2 & E3 & E4)|(NO & E4)]; rewrite E4.
  - assert (OV : overwrites op (lookup d (op_key op)) old') by (repeat split; [exact E1|exact E2|now rewrite E1]).
    destruct told.
    + destruct S1 as [->|(T & old & (E & N & O) & (t & u & S & X & Y))]; [now destruct (S2 eq_refl eq_refl old')|].
      exists t, u. split; [exact S|]. rewrite X. rewrite E in E1. now injection E1 as <-.
    + destruct S1 as [->|(T & _)]; [reflexivity|discriminate].
  - destruct S1 as [->|(T & old & (E & N & O) & _)]; [reflexivity|].
    destruct NO. exists old. rewrite E in O. auto.
Qed.

(** A call that fails throws std::bad_alloc and changes nothing but the message it is about,
    which is left as before, or known without forms, or (plural call) with its first forms new
    and the others old. *)
Theorem C86_failed : forall grants room told d op d' log,
  add_call grants room told d op = (BadAlloc, d', log) ->
  get_charset d' = get_charset d /\ get_plural_forms d' = get_plural_forms d /\
  d_has_fallback d' = d_has_fallback d /\ d_fallback d' = d_fallback d /\
  (forall k, k <> op_key op -> lookup d' k = lookup d k) /\
  half_done op (lookup d (op_key op)) (lookup d' (op_key op)).
Proof.
  intros grants room told d op d' log C. apply add_call_cases in C.
  destruct C as (said & _ & (S & O & H) & _). cbn [ms_dict] in *. injection S as S1 S2 S3 S4. auto 10.
Qed.

(** Unlike an exception, std::terminate cannot be caught: it strikes only when a warning about
    an overwritten translation is to be passed to a callback. *)
Theorem C86_terminates_only_when_warning : forall grants room told d op d' log,
  add_call grants room told d op = (Terminate, d', log) ->
  told = true /\ (exists old, overwrites op (lookup d (op_key op)) old) /\ exists n, grants n = false.
Proof.
  intros grants room told d op d' log C.
  assert (N := C). apply add_call_cases in N. destruct N as (said & _ & _ & _ & T & _ & O).
  split; [exact T|]. split; [exact O|].
  (* the program was terminated after a refused request *)
  clear O. unfold add_call in C.
  destruct (add_mem grants room told op {| ms_dict := d; ms_asked := 0; ms_log := [] |}) as [f s] eqn:R.
  injection C as -> _ _.
  assert (K : forall op s s', add_mem grants room told op s = (Terminate, s') -> exists n, grants n = false).
  2: exact (K _ _ _ R).
  assert (KW : forall ps s s', warn grants told ps s = (Terminate, s') -> exists n, grants n = false).
  { intros ps s1 s2. unfold warn. destruct told; [|discriminate]. unfold bind at 1.
    destruct (alloc_cases grants s1) as [->|[-> _]]; [|discriminate]. cbv iota beta. unfold bind at 1.
    match goal with |- context [insert_pieces grants ps [] ?s0] => generalize s0 end. clear s1. intro s1.
    destruct (insert_pieces_cases grants ps [] s1) as (n & s3 & R1 & _). rewrite R1.
    unfold bind, request. destruct (grants (ms_asked s3)) eqn:G; [discriminate|]. intros _. now exists (ms_asked s3). }
  assert (KA : forall A s s' (k : unit -> MM A), (forall s, fst (k tt s) <> Terminate) ->
    bind (alloc grants) k s = (Terminate, s') -> False).
  { intros A s1 s2 k K. unfold bind at 1. destruct (alloc_cases grants s1) as [->|[-> _]]; [|discriminate].
    intro X. apply (K {| ms_dict := ms_dict s1; ms_asked := S (ms_asked s1); ms_log := ms_log s1 |}). now rewrite X. }
  assert (KV : forall c i old new s s', vector_assign grants room c i old new s = (Terminate, s') -> False).
  { intros c i old new s1 s2. unfold vector_assign. destruct room.
    - generalize (@nil (list Ascii.ascii)) as done. revert old s1.
      induction new as [|x new IH]; intros [|y old] s1 done; cbn [assign_each].
      + rewrite write_put. discriminate.
      + rewrite write_put. discriminate.
      + apply KA. intro. rewrite write_put. discriminate.
      + unfold bind at 1. destruct (alloc_cases grants s1) as [->|[-> _]]; [|discriminate].
        unfold bind at 1. rewrite write_put. apply IH.
    - apply KA. intro. rewrite write_put. discriminate. }
  intros [c i m|c i pl new] s1 s2; cbn [add_mem]; [unfold add_singular_mem|unfold add_plural_mem]; unfold bind at 1;
    destruct (vec_at_cases grants c i s1) as (f & s3 & R1 & _ & H); rewrite R1;
    (destruct f as [vec| |]; [|discriminate|easy]).
  - destruct vec as [|v0 vs].
    + intro X. exfalso. revert X. apply KA. intro. rewrite write_put. discriminate.
    + destruct (negb (bytes_eqb v0 m)); [|discriminate]. unfold bind at 1.
      match goal with |- context [warn grants told ?p s3] => destruct (warn grants told p s3) as [[[]| |] s4] eqn:W end;
        [|discriminate|intros _; exact (KW _ _ _ W)].
      intro X. exfalso. revert X. apply KA. intro. rewrite write_put. discriminate.
  - destruct (is_nil vec); [intro X; now destruct (KV _ _ _ _ _ _ X)|].
    destruct (negb (strs_eqb vec new)); [|discriminate]. unfold bind at 1.
    match goal with |- context [warn grants told ?p s3] => destruct (warn grants told p s3) as [[[]| |] s4] eqn:W end;
      [|discriminate|intros _; exact (KW _ _ _ W)].
    intro X. now destruct (KV _ _ _ _ _ _ X).
Qed.

(** VIOLATION. It does strike: whenever a translation is overwritten and there is a callback,
    some lack of memory ends the program. *)
Theorem C86_terminates : forall d op old room,
  overwrites op (lookup d (op_key op)) old ->
  exists grants d', add_call grants room true d op = (Terminate, d', []).
Proof. exact terminates. Qed.

(** In any history of calls, however many of them fail, every message none of whose own calls
    failed has exactly the forms it was given. *)
Theorem C86_histories : forall l d oks d' k,
  attempts l d = Some (oks, d') -> lucky l oks k ->
  lookup d' k = fold_left spec_add (map at_op l) (lookup d) k.
Proof. exact history_lucky. Qed.

(** Trying again until it works is as good as a call that works at once. *)
Theorem C86_retry : forall l op d oks d',
  (forall a, In a l -> at_op a = op) -> attempts l d = Some (oks, d') -> last oks false = true ->
  (forall ok, In ok (removelast oks) -> ok = false) ->
  forall k, lookup d' k = spec_add (lookup d) op k.
Proof.
  intros l op d oks d' SAME A LAST FAILED k.
  assert (K : forall l d oks d', (forall a, In a l -> at_op a = op) -> attempts l d = Some (oks, d') ->
    last oks false = true -> (forall ok, In ok (removelast oks) -> ok = false) ->
    (forall k, k <> op_key op -> lookup d' k = lookup d k) /\
    lookup d' (op_key op) = Some (new_forms (lookup d (op_key op)) op)).
  { clear. induction l as [|a l IH]; intros d oks d' SAME A LAST FAILED; cbn [attempts] in A.
    - injection A as <- <-. discriminate.
    - assert (O := SAME a (or_introl eq_refl)). rewrite O in A.
      destruct (add_call (at_grants a) (at_room a) (at_told a) d op) as [[f d1] lg] eqn:C.
      destruct f as [[]| |]; [| |discriminate].
      + destruct (attempts l d1) as [[oks1 d2]|] eqn:R; [|discriminate]. injection A as <- <-.
        destruct oks1 as [|ok oks1].
        * assert (l = []) as ->.
          { destruct l as [|a' l]; [reflexivity|]. cbn [attempts] in R.
            destruct (add_call (at_grants a') (at_room a') (at_told a') d1 (at_op a')) as [[f d3] lg'].
            destruct f as [[]| |]; [| |discriminate];
              (destruct (attempts l d3) as [[o3 d4]|]; discriminate). }
          cbn in R. injection R as <-. apply C86_completed in C. destruct C as (_ & C & _).
          split.
          -- intros k N. rewrite C. unfold spec_add, update. now destruct (key_eq_dec k (op_key op)).
          -- rewrite C. unfold spec_add, update. now destruct (key_eq_dec (op_key op) (op_key op)).
        * specialize (FAILED true (or_introl eq_refl)). discriminate.
      + destruct (attempts l d1) as [[oks1 d2]|] eqn:R; [|discriminate]. injection A as <- <-.
        destruct (IH d1 oks1 d2) as [I1 I2].
        * intros b B. apply SAME. now right.
        * exact R.
        * destruct oks1; [discriminate|exact LAST].
        * intros ok B. apply FAILED. destruct oks1; [easy|]. now right.
        * apply C86_failed in C. destruct C as (_ & _ & _ & _ & C & H). split.
          -- intros k N. rewrite I1 by exact N. now apply C.
          -- rewrite I2. f_equal. destruct H as [old| |c i pl new old n -> _ _]; reflexivity. }
  destruct (K l d oks d' SAME A LAST FAILED) as [K1 K2]. unfold spec_add, update.
  destruct (key_eq_dec k (op_key op)) as [->|N]; [exact K2|now apply K1].
Qed.

(** VIOLATION. A call that fails is not without effect: whatever the dictionary, a new message
    can be left known without forms, so that translate_plural, which before chose between msgid
    and msgid_plural, now answers msgid for every number. *)
Theorem C86_failure_visible : forall d i s pl room told,
  lookup d (None, i) = None ->
  exists grants d', add_call grants room told d (AddSingular None i s) = (BadAlloc, d', []) /\
    (forall n, fst (translate_plural d i pl n) = if (n =? 1)%Z then i else pl) /\
    (forall n, fst (translate_plural d' i pl n) = i).
Proof.
  intros d i s pl room told L.
  destruct (left_empty d (AddSingular None i s) room told L) as (g & d' & C & E); [discriminate|].
  exists g, d'. split; [exact C|]. cbn [op_key] in E. split; intro n.
  - rewrite translate_plural_spec. unfold spec_translate_plural. now rewrite L.
  - rewrite translate_plural_spec. unfold spec_translate_plural. rewrite E. now destruct (Z.to_nat _).
Qed.

(** VIOLATION. Likewise, whatever the old and the new plural forms, a failed call can leave
    any number of new forms in front of old ones. *)
Theorem C86_failure_mixes : forall d c i pl old new told n,
  lookup d (c, i) = Some old -> old <> [] -> old <> new -> n < length new -> n <= length old ->
  exists grants log d', add_call grants true told d (AddPlural c i pl new) = (BadAlloc, d', log) /\
    lookup d' (c, i) = Some (firstn n new ++ skipn n old).
Proof. exact mixture. Qed.

Definition mem_d : dictionary :=
  fst (add_translation (fst (add_translation (new_dictionary utf8) (AddPlural None (bs "%d file") (bs "%d files")
         [bs "%d Datei"; bs "%d Dateien"]))) (AddSingular (Some (bs "menu")) (bs "Open") (bs "Oeffnen"))).
Definition mem_op : add_op := AddPlural None (bs "%d file") (bs "%d files") [bs "%d fichier"; bs "%d fichiers"].

(** Non-vacuous: requests 0 to 23 make the warning and 24 and 25 store the forms. *)
Example C86_nonvacuous :
  let run n told := add_call (fun k => negb (k =? n)) true told mem_d mem_op in
  let forms n told := lookup (snd (fst (run n told))) (None, bs "%d file") in
  fst (fst (run 23 true)) = Terminate /\
  fst (fst (run 24 true)) = BadAlloc /\ forms 24 true = Some [bs "%d Datei"; bs "%d Dateien"] /\
  fst (fst (run 25 true)) = BadAlloc /\ forms 25 true = Some [bs "%d fichier"; bs "%d Dateien"] /\
  fst (fst (run 26 true)) = Fine tt /\ forms 26 true = Some [bs "%d fichier"; bs "%d fichiers"] /\
  fst (fst (run 1 false)) = BadAlloc /\ fst (fst (run 2 false)) = Fine tt /\
  option_map fst (attempts
    [ {| at_op := mem_op; at_grants := fun k => negb (k =? 25); at_room := true; at_told := true |};
      {| at_op := AddSingular (Some (bs "menu")) (bs "Quit") (bs "Beenden"); at_grants := fun _ => true; at_room := true; at_told := true |};
      {| at_op := AddSingular None (bs "x") (bs "y"); at_grants := fun k => k =? 0; at_room := false; at_told := true |};
      {| at_op := mem_op; at_grants := fun _ => true; at_room := true; at_told := true |} ] mem_d)
    = Some [false; true; false; true] /\
  overwrites mem_op (lookup mem_d (op_key mem_op)) [bs "%d Datei"; bs "%d Dateien"].
Proof.
  cbv zeta. repeat match goal with |- (_ = _) /\ _ => split; [vm_compute; reflexivity|] end.
  split; [reflexivity|]. split; vm_compute; discriminate. Qed.

Print Assumptions C86_enough_memory.
Print Assumptions C86_completed.
Print Assumptions C86_failed.
Print Assumptions C86_terminates_only_when_warning.
Print Assumptions C86_terminates.
Print Assumptions C86_histories.
Print Assumptions C86_retry.
Print Assumptions C86_failure_visible.
Print Assumptions C86_failure_mixes.
