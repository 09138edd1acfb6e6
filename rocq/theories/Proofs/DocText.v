(** From written text to the trees of Spec/PoSpec.v, and from calls to answers. *)
From Verif.Model Require Import Base Log PluralForms Dictionary IConv Stream PoParser.
From Verif.Spec Require Import DictSpec ParserSpec.
From Verif.Proofs Require Import BaseFacts PluralProofs DictProofs LexProofs ParserUnary DocLex ParserRel ParserSafe ParserFuel ParserLocal
  ParserCut ParserBlank ParserTerm ParserLinewise ParserMisc DocProofs DocLoop DocTop DocEnd.
From Verif.Spec Require Import PoSpec.
Local Open Scope list_scope.

Lemma escapes_meaning l c : In (l, c) escapes -> meaning_of l escapes = Some c.
Proof.
  unfold escapes. cbn [In]. intro H.
  repeat (destruct H as [H|H]; [injection H as <- <-; reflexivity|]). destruct H.
Qed.
Lemma written_pieces v t : written v t ->
  exists ps, List.concat (List.map piece_text ps) = t /\ List.concat (List.map piece_value ps) = v /\ Forall (piece_ok false) ps.
Proof.
  induction 1 as [|c v t H1 H2 H3 _ (ps & E1 & E2 & F)|c l v t H _ (ps & E1 & E2 & F)].
  - exists []. repeat split; constructor.
  - exists (Raw c :: ps). cbn [List.map List.concat piece_text piece_value app]. rewrite E1, E2. split; [reflexivity|]. split; [reflexivity|].
    constructor; [|exact F]. cbn. split; [exact H1|split; [exact H2|split; [exact H3|discriminate]]].
  - exists (Esc l :: ps). apply escapes_meaning in H. cbn [List.map List.concat piece_text piece_value app]. rewrite H, E1, E2.
    split; [reflexivity|]. split; [reflexivity|]. constructor; [|exact F]. unfold piece_ok. rewrite H. discriminate.
Qed.
Lemma white_clean strict l : white l -> clean strict l.
Proof.
  intros H _. induction H as [|c l Hc _ IH]; [reflexivity|]. cbn [existsb]. rewrite IH, orb_false_r.
  destruct (hi c) eqn:E; [|reflexivity]. pose proof (forall_bytes (fun c => negb (isspace c && hi c)) eq_refl c) as K.
  cbv beta in K. rewrite Hc, E in K. discriminate.
Qed.
Lemma quoted_chunks strict parts lines : quoted parts lines ->
  exists cks, List.map chunk_text cks = lines /\ List.map chunk_value cks = parts /\ Forall (chunk_ok strict false) cks.
Proof.
  induction 1 as [|v t lead trail parts lines Hw H1 H2 H3 H4 _ (cks & E1 & E2 & F)].
  - exists []. repeat split; constructor.
  - destruct (written_pieces _ _ Hw) as (ps & P1 & P2 & P3).
    exists ({| ck_lead := lead; ck_body := ps; ck_trail := trail |} :: cks). cbn [List.map]. unfold chunk_text at 1, chunk_value at 1. cbn [ck_lead ck_body ck_trail].
    rewrite P1, P2, E1, E2. split; [reflexivity|]. split; [reflexivity|]. constructor; [|exact F].
    unfold chunk_ok. cbn [ck_lead ck_body ck_trail]. repeat (split; [assumption|]). now apply white_clean.
Qed.
Lemma spelled_literal strict kw v lines : spelled kw v lines ->
  exists l, lit_lines kw l = lines /\ lit_value l = v /\ lit_ok strict false l.
Proof.
  intros (parts & first & more & -> & Q & ->). destruct (quoted_chunks strict _ _ Q) as (cks & E1 & E2 & F).
  destruct cks as [|ck cks]; [discriminate|]. injection E1 as E0 E1.
  exists {| lt_head := ck; lt_more := cks |}. unfold lit_lines, lit_value, lit_ok. cbn [lt_head lt_more]. rewrite E0, E1, E2. auto.
Qed.

(** ** Every byte string can be written *)
Fixpoint letter_for (c : byte) (t : list (byte * byte)) : option byte :=
  match t with [] => None | (l, v) :: t' => if byte_eqb c v then Some l else letter_for c t' end.
Definition escape_byte (c : byte) : bytes := match letter_for c escapes with Some l => [c_bsl; l] | None => [c] end.
Definition escape (v : bytes) : bytes := List.concat (List.map escape_byte v).
Lemma letter_for_in c l t : letter_for c t = Some l -> In (l, c) t.
Proof.
  induction t as [|[l' v] t IH]; cbn; [discriminate|]. destruct (byte_eqb c v) eqn:E.
  - intro H. injection H as ->. apply byte_eqb_eq in E as ->. now left.
  - intro H. right. now apply IH.
Qed.
Lemma escape_written v : written v (escape v).
Proof.
  induction v as [|c v IH]; [constructor|]. unfold escape in *. cbn [List.map List.concat]. unfold escape_byte at 1.
  destruct (letter_for c escapes) as [l|] eqn:E.
  - apply w_esc; [now apply letter_for_in|exact IH].
  - apply w_raw; [| | |exact IH]; intros ->; vm_compute in E; discriminate.
Qed.

(** ** Answers of a dictionary after a list of calls *)
Lemma calls_lookup calls : forall d k, lookup (fold_left apply_call calls d) k = fold_left spec_add (adds calls) (lookup d) k.
Proof.
  assert (Ext : forall ops m m', (forall k, m k = m' k) -> forall k, fold_left spec_add ops m k = fold_left spec_add ops m' k).
  { induction ops as [|op ops IH]; intros m m' H k; cbn; [apply H|]. apply IH. intro k'. unfold spec_add, update. rewrite H. destruct (key_eq_dec _ _); auto. }
  induction calls as [|[op|p] calls IH]; intros d k; cbn [fold_left adds apply_call]; [reflexivity| |].
  - rewrite IH. apply Ext. intro k'. apply lookup_add.
  - rewrite IH. apply Ext. intro k'. destruct (pf_valid _); reflexivity.
Qed.
Lemma calls_fields calls : forall d, d_has_fallback (fold_left apply_call calls d) = d_has_fallback d /\
  d_fallback (fold_left apply_call calls d) = d_fallback d /\ d_charset (fold_left apply_call calls d) = d_charset d.
Proof.
  induction calls as [|c calls IH]; intro d; cbn [fold_left]; [auto|]. destruct (IH (apply_call d c)) as (-> & -> & ->).
  destruct c as [op|p]; cbn [apply_call]; [|destruct (pf_valid _); auto]. pose proof (add_fields d op) as (_ & C & F1 & F2). auto.
Qed.
(** the plural rule: the dictionary's own, or else the first one offered *)
Lemma calls_plural calls : forall d, Forall sound_call calls ->
  d_plural (fold_left apply_call calls d) =
  if pf_valid (d_plural d) then d_plural d else match plurals calls with p :: _ => p | [] => d_plural d end.
Proof.
  induction calls as [|c calls IH]; intros d H; cbn [fold_left plurals]; [destruct (pf_valid _); reflexivity|].
  inversion H as [|? ? Hc Hr]; subst. rewrite (IH _ Hr). destruct c as [op|p]; cbn [apply_call plurals].
  - pose proof (add_fields d op) as (P & _). rewrite P. reflexivity.
  - unfold get_plural_forms. destruct (pf_valid (d_plural d)) eqn:E; [rewrite E; reflexivity|]. cbn. cbn in Hc. rewrite Hc. reflexivity.
Qed.

(** ** Assembling documents from written strings *)
Definition lone (e : po_entry) : document := {| dc_blocks := []; dc_last := {| bl_comments := []; bl_entry := Some e |} |}.
Definition two (h e : po_entry) : document :=
  {| dc_blocks := [({| bl_comments := []; bl_entry := Some h |}, [])]; dc_last := {| bl_comments := []; bl_entry := Some e |} |}.
Lemma lone_ok strict e : entry_ok strict false e -> doc_ok strict (lone e).
Proof. intro H. split; [constructor|]. split; [constructor|]. split; [exact H|exact Logic.I]. Qed.
Lemma blank_nil : is_blank [].
Proof. split; [intros []|]. left. constructor. Qed.
Lemma two_ok strict h e : entry_ok strict false h -> entry_ok strict (big5_after false h) e -> doc_ok strict (two h e).
Proof.
  intros H1 H2. split; [|split; [constructor|split; [exact H1|split; [exact H2|exact Logic.I]]]].
  constructor; [|constructor]. split; [constructor|]. split; [exact blank_nil|discriminate].
Qed.
Lemma lone_text e : doc_text (lone e) = unlines (entry_lines e).
Proof. reflexivity. Qed.
Lemma two_text h e : doc_text (two h e) = unlines (entry_lines h ++ [] :: entry_lines e).
Proof. unfold doc_text, doc_lines. cbn. rewrite app_nil_r, <- app_assoc. reflexivity. Qed.
Lemma non_nil {A} (l : list A) : l <> [] -> is_nil l = false.
Proof. now destruct l. Qed.

(** the entry a lookup finds first *)
Lemma found_translate fuel h d i v rest : lookup d (None, i) = Some (v :: rest) -> fst (translate (S fuel) h d i) = Ret v.
Proof. unfold lookup, translate. cbn. intros ->. reflexivity. Qed.
Lemma found_translate_ctxt fuel h d c i v rest : lookup d (Some c, i) = Some (v :: rest) -> fst (translate_ctxt (S fuel) h d c i) = Ret v.
Proof. unfold lookup, translate_ctxt. cbn. destruct (assoc c (d_ctxt d)) as [es|]; [|discriminate]. intros ->. reflexivity. Qed.

Lemma opt_spelled_literal strict o lines : opt_spelled o lines ->
  exists l, ctxt_lines l = lines /\ opt_value l = o /\ (match l with Some x => lit_ok strict false x | None => True end).
Proof.
  destruct o as [v|]; cbn.
  - intro H. destruct (spelled_literal strict _ _ _ H) as (l & E1 & E2 & E3). exists (Some l). cbn [ctxt_lines opt_value]. rewrite E2. auto.
  - intros ->. exists None. auto.
Qed.
Lemma spelled_rows strict rows lines :
  Forall2 (fun (r : nat * bytes) ls => spelled (bs "msgstr[" ++ [digit_of (fst r); c_rbr]) (snd r) ls) rows lines ->
  exists lits, List.concat (List.map row_lines lits) = List.concat lines /\
    List.map (fun r => (fst r, lit_value (snd r))) lits = rows /\ Forall (fun r => lit_ok strict false (snd r)) lits.
Proof.
  induction 1 as [|[n v] ls rows lines H _ (lits & E1 & E2 & F)]; [exists []; repeat split; constructor|].
  cbn [fst snd] in H. destruct (spelled_literal strict _ _ _ H) as (l & L1 & L2 & L3). exists ((n, l) :: lits).
  cbn [List.map List.concat]. unfold row_lines at 1. cbn [fst snd]. rewrite L1, L2, E1, E2. auto.
Qed.
