(** Sizes. *)
From Verif.Model Require Import Base Log PluralForms Dictionary IConv Stream PoParser.
From Verif.Spec Require Import DictSpec ParserSpec PoSpec SoundSpec SizeSpec.
From Verif.Proofs Require Import BaseFacts DictProofs.
Local Open Scope list_scope.

Lemma total_nil {A} (f : A -> nat) : total f [] = 0. Proof. reflexivity. Qed.
Lemma total_cons {A} (f : A -> nat) x l : total f (x :: l) = f x + total f l. Proof. reflexivity. Qed.
Lemma total_app {A} (f : A -> nat) a b : total f (a ++ b) = total f a + total f b.
Proof. unfold total. rewrite map_app, list_sum_app. reflexivity. Qed.
Lemma total_map {A B} (f : B -> nat) (g : A -> B) l : total f (List.map g l) = total (fun x => f (g x)) l.
Proof. unfold total. now rewrite map_map. Qed.
Lemma total_le {A} (f g : A -> nat) l : (forall x, In x l -> f x <= g x) -> total f l <= total g l.
Proof.
  induction l as [|x l IH]; intro H; [apply le_n|]. rewrite !total_cons. specialize (IH (fun y Hy => H y (or_intror Hy))).
  specialize (H x (or_introl eq_refl)). lia.
Qed.
Lemma total_scale {A} (f : A -> nat) k l : total (fun x => k * f x) l = k * total f l.
Proof. induction l as [|x l IH]; [cbn; lia|]. rewrite !total_cons, IH. lia. Qed.
Lemma total_concat {A B} (f : B -> nat) (g : A -> list B) l : total f (List.concat (List.map g l)) = total (fun x => total f (g x)) l.
Proof. induction l as [|x l IH]; [reflexivity|]. cbn [List.map List.concat]. now rewrite total_app, total_cons, IH. Qed.
Lemma len_concat {A} (ls : list (list A)) : length (List.concat ls) = total (@length A) ls.
Proof. induction ls as [|l ls IH]; [reflexivity|]. cbn [List.concat]. now rewrite app_length, total_cons, IH. Qed.

(** ** lines *)
Lemma lines_from_size b : forall acc, texts_size (lines_from acc b) <= length acc + length b.
Proof.
  unfold texts_size. induction b as [|c b IH]; intro acc; cbn [lines_from].
  - destruct (is_nil acc); rewrite ?total_cons, total_nil; cbn; lia.
  - destruct (byte_eqb c c_lf); [rewrite total_cons; specialize (IH []); cbn [length] in *; lia|].
    specialize (IH (acc ++ [c])). rewrite app_length in IH. cbn [length] in *. lia.
Qed.
Lemma drop_bom_size l : length (drop_bom l) <= length l.
Proof. unfold drop_bom. destruct (starts_with _ _); [rewrite skipn_length|]; lia. Qed.
Lemma file_lines_size b : texts_size (file_lines b) <= length b.
Proof.
  unfold file_lines, lines_of. pose proof (lines_from_size b []) as H. cbn [length plus] in H.
  destruct (lines_from [] b) as [|l ls]; [cbn; lia|]. unfold texts_size in *. rewrite total_cons in *. pose proof (drop_bom_size l). lia.
Qed.

(** ** literals *)
Lemma piece_size p : length (piece_value p) <= length (piece_text p).
Proof. destruct p as [c|l|c|a b]; cbn [piece_value piece_text length]; try lia. destruct (meaning_of l escapes); cbn [length]; lia. Qed.
Lemma chunk_size c : length (chunk_value c) <= length (chunk_text c).
Proof.
  unfold chunk_value, chunk_text. rewrite app_length. cbn [length]. rewrite app_length, !len_concat, !total_map.
  pose proof (total_le (fun x => length (piece_value x)) (fun x => length (piece_text x)) (ck_body c) (fun x _ => piece_size x)). lia.
Qed.
Lemma lit_size kw l : length (lit_value l) + length kw <= texts_size (lit_lines kw l).
Proof.
  unfold lit_value, lit_lines, texts_size. rewrite len_concat, total_map, !total_cons, total_map, app_length.
  pose proof (chunk_size (lt_head l)). pose proof (total_le (fun x => length (chunk_value x)) (fun x => length (chunk_text x)) (lt_more l) (fun x _ => chunk_size x)). lia.
Qed.

(** ** plural forms of an entry *)
Lemma total_but (f g : nat -> nat) n a is : NoDup is -> (forall i, i <> n -> f i <= g i) -> f n <= a + g n -> total f is <= a + total g is.
Proof.
  intros N H H1. induction N as [|i is I N IH]; [cbn; lia|]. rewrite !total_cons. destruct (Nat.eq_dec i n) as [->|E]; [|specialize (H i E); lia].
  enough (total f is <= total g is) by lia. apply total_le. intros j J. apply H. congruence.
Qed.
Lemma form_size rows : forall is, NoDup is -> total (fun i => length (form i rows)) is <= total (fun r => length (snd r)) rows.
Proof.
  induction rows as [|[n v] rows IH]; intros is N; cbn [form].
  - rewrite total_nil. induction is as [|i is _]; [cbn; lia|]. clear. induction is as [|i' is IH]; [cbn; lia|]. rewrite total_cons in *. rewrite total_cons. cbn [length] in *. lia.
  - rewrite total_cons. cbn [snd]. specialize (IH is N).
    assert (X := total_but (fun i => length (if (n =? i) && negb (existsb (fun r => fst r =? i) rows) then v else form i rows))
                   (fun i => length (form i rows)) n (length v) is N). cbv beta in X.
    enough (total (fun i => length (if (n =? i) && negb (existsb (fun r => fst r =? i) rows) then v else form i rows)) is
            <= length v + total (fun i => length (form i rows)) is) by lia.
    apply X.
    + intros i E. destruct (Nat.eqb_spec n i); [congruence|]. cbn [andb]. lia.
    + destruct ((n =? n) && _); lia.
Qed.
Lemma forms_size rows : texts_size (forms rows) <= total (fun r => length (snd r)) rows.
Proof. unfold forms, texts_size. rewrite total_map. apply form_size, seq_NoDup. Qed.

(** ** entries *)
Section Entry.
  Context {I : iconv_impl}.
  Hypothesis OK : iconv_ok I.
  Lemma convert_size ndb (c : iconv I) text v c' t : convert ndb c text = (Ret v, c', t) -> length v <= 4 * length text.
  Proof.
    unfold convert. destruct (cv_cd c) as [| |id st]; [intro H; injection H as <- _ _; lia|discriminate|].
    pose proof (OK st text (4 * length text)) as L. destruct (ic_conv I st text (4 * length text)) as [[st' out] err]. cbn [fst snd] in L.
    destruct err as [[]|]; try destruct ndb; intro H; try discriminate H; injection H as <- _ _; exact L.
  Qed.
  Lemma convert_rows_size ndb rows : forall (c : iconv I) vs c', convert_rows ndb c rows = (Ret vs, c') ->
    total (fun r => length (snd r)) vs <= 4 * total (fun r => length (lit_value (snd r))) rows.
  Proof.
    induction rows as [|[n l] rows IH]; intros c vs c' H; cbn [convert_rows] in H; [injection H as <- _; cbn; lia|].
    destruct (convert ndb c (lit_value l)) as [[[v|e|u| |] c1] t1] eqn:C; try discriminate H. apply convert_size in C.
    destruct (convert_rows ndb c1 rows) as [[vs1|e|u| |] c2] eqn:R; try discriminate H. injection H as <- _. apply IH in R.
    rewrite !total_cons. cbn [snd] in *. lia.
  Qed.
  Lemma rows_lines_size rows : total (fun r => length (lit_value (snd r))) rows <= texts_size (List.concat (List.map row_lines rows)).
  Proof.
    unfold texts_size. rewrite total_concat. apply total_le. intros [n l] _. cbn [snd]. unfold row_lines. cbn [fst snd].
    pose proof (lit_size (bs "msgstr[" ++ [digit_of n; c_rbr]) l). unfold texts_size in *. lia.
  Qed.
  Lemma opt_ctxt_size o : opt_size (opt_value o) <= texts_size (ctxt_lines o).
  Proof. destruct o as [l|]; cbn [opt_value opt_size ctxt_lines]; [pose proof (lit_size (bs "msgctxt") l); lia|lia]. Qed.
  Lemma hdr_lines_len h : forall acc, length (hdr_lines_from acc h) <= length h.
  Proof. induction h as [|c h IH]; intro acc; cbn [hdr_lines_from length]; [lia|]. destruct (byte_eqb c c_lf); cbn [length]; specialize (IH []) as A; specialize (IH (acc ++ [c])) as B; lia. Qed.
  Lemma hdr_plurals_len h : length (hdr_plurals h) <= length h.
  Proof.
    unfold hdr_plurals. rewrite len_concat, total_map. transitivity (length (hdr_lines h)); [|apply hdr_lines_len].
    induction (hdr_lines h) as [|l ls IH]; [cbn; lia|]. rewrite total_cons. cbn [length].
    assert (length (hdr_plural l) <= 1); [|lia]. unfold hdr_plural. destruct (starts_with _ _); [|cbn; lia]. destruct (from_string false l); try (cbn; lia). destruct (pf_valid _); cbn; lia.
  Qed.
  Lemma entry_calls_size ndb charset (c : iconv I) e o c' calls : read_entry ndb charset c e = (o, c', calls) ->
    total call_size calls <= 4 * texts_size (entry_lines e) /\ length calls <= texts_size (entry_lines e).
  Proof.
    unfold read_entry, entry_lines. unfold texts_size. rewrite !total_app. fold (texts_size (ctxt_lines (en_ctxt e))).
    fold (texts_size (lit_lines (bs "msgid") (en_id e))). fold (texts_size (body_lines (en_body e))).
    pose proof (opt_ctxt_size (en_ctxt e)) as HC. pose proof (lit_size (bs "msgid") (en_id e)) as HI.
    assert (K : length (bs "msgid") = 5) by reflexivity. rewrite K in HI. clear K.
    destruct (en_body e) as [m|p rows]; cbn [body_lines].
    - pose proof (lit_size (bs "msgstr") m) as HM. assert (K : length (bs "msgstr") = 6) by reflexivity. rewrite K in HM. clear K.
      destruct (is_nil (lit_value (en_id e))).
      + destruct (set_charsets _ _ _ _) as [[o1 c1] t1]. intro E. injection E as _ _ <-. rewrite total_map, map_length. pose proof (hdr_plurals_len (lit_value m)).
        split; [|lia]. cbn [call_size]. unfold total.
        assert (Z : forall l : list plural_forms, list_sum (List.map (fun _ => 0) l) = 0) by (induction l; auto). rewrite Z. lia.
      + destruct (is_nil (lit_value m)); [intro E; injection E as _ _ <-; cbn; lia|].
        destruct (convert ndb c (lit_value m)) as [[o1 c1] t1] eqn:C. destruct o1 as [v|?|?| |]; intro E; injection E as _ _ <-; try (cbn; lia).
        apply convert_size in C. rewrite total_cons, total_nil. cbn [call_size length]. unfold texts_size in *. lia.
    - unfold texts_size. rewrite total_app. fold (texts_size (lit_lines (bs "msgid_plural") p)).
      fold (texts_size (List.concat (List.map row_lines rows))).
      pose proof (lit_size (bs "msgid_plural") p) as HP. pose proof (rows_lines_size rows) as HR.
      destruct (convert_rows ndb c rows) as [o1 c1] eqn:C. destruct o1 as [vs|?|?| |]; intro E; injection E as _ _ <-; try (cbn; lia).
      apply convert_rows_size in C. destruct (forallb _ rows); [cbn; lia|]. pose proof (forms_size vs).
      rewrite total_cons, total_nil. cbn [call_size length]. unfold texts_size in *. lia.
  Qed.
  Lemma explained_size ndb charset ps : forall before, @explained I ndb charset before ps ->
    total call_size (pieces_calls ps) <= 4 * texts_size (pieces_lines ps) /\ length (pieces_calls ps) <= texts_size (pieces_lines ps).
  Proof.
    unfold pieces_calls, pieces_lines. induction ps as [|p ps IH]; intros before H; cbn [explained] in H; [cbn; lia|].
    destruct H as ((c & o & c' & _ & R) & H). apply IH in H as [H1 H2]. apply entry_calls_size in R as [R1 R2].
    cbn [List.map List.concat]. unfold texts_size in *. rewrite !total_app, app_length. lia.
  Qed.
End Entry.

(** entries read literally *)
Lemma entry_literal_size e : total call_size (entry_calls e) <= texts_size (entry_lines e).
Proof.
  unfold entry_calls, entry_lines. unfold texts_size. rewrite !total_app. fold (texts_size (ctxt_lines (en_ctxt e))).
  fold (texts_size (lit_lines (bs "msgid") (en_id e))). fold (texts_size (body_lines (en_body e))).
  pose proof (opt_ctxt_size (en_ctxt e)) as HC. pose proof (lit_size (bs "msgid") (en_id e)) as HI.
  destruct (en_body e) as [m|p rows]; cbn [body_lines].
  - pose proof (lit_size (bs "msgstr") m) as HM. destruct (is_nil (lit_value (en_id e))).
    + rewrite total_map. cbn [call_size]. unfold total.
      assert (Z : forall l : list plural_forms, list_sum (List.map (fun _ => 0) l) = 0) by (induction l; auto). rewrite Z. lia.
    + destruct (is_nil (lit_value m)); [cbn; lia|]. rewrite total_cons, total_nil. cbn [call_size]. unfold texts_size in *. lia.
  - unfold texts_size. rewrite total_app. fold (texts_size (lit_lines (bs "msgid_plural") p)).
    fold (texts_size (List.concat (List.map row_lines rows))).
    pose proof (lit_size (bs "msgid_plural") p) as HP. pose proof (rows_lines_size rows) as HR.
    destruct (forallb _ rows); [cbn; lia|]. pose proof (forms_size (List.map (fun r => (fst r, lit_value (snd r))) rows)) as F.
    rewrite total_map in F. cbn [snd] in F. rewrite total_cons, total_nil. cbn [call_size]. unfold texts_size in *. lia.
Qed.
Lemma pieces_literal_size ps : total call_size (List.concat (List.map entry_calls (pieces_entries ps))) <= texts_size (pieces_lines ps).
Proof.
  unfold pieces_entries, pieces_lines. rewrite map_map. unfold texts_size. rewrite !total_concat. apply total_le. intros p _. rewrite total_app.
  pose proof (entry_literal_size (pf_entry p)). unfold texts_size in *. lia.
Qed.

(** ** dictionaries *)
Definition es_size (es : list (bytes * list bytes)) : nat := total (fun m => length (fst m) + texts_size (snd m)) es.
Lemma set_size k v es : es_size (assoc_set k v es) + texts_size (entry_or_new es k) <= es_size es + length k + texts_size v.
Proof.
  unfold es_size, entry_or_new. induction es as [|[k' v'] es IH]; cbn [assoc_set assoc].
  - rewrite total_cons, total_nil. cbn [fst snd]. change (texts_size []) with 0. lia.
  - destruct (bytes_eqb k k') eqn:E.
    + rewrite !total_cons. cbn [fst snd]. lia.
    + rewrite !total_cons. cbn [fst snd]. destruct (assoc k es); lia.
Qed.
Lemma set_len {V} k (v : V) es : length (assoc_set k v es) <= S (length es).
Proof. induction es as [|[k' v'] es IH]; cbn [assoc_set]; [cbn; lia|]. destruct (bytes_eqb k k'); cbn [length]; lia. Qed.
Definition ctxt_size (cs : list (bytes * list (bytes * list bytes))) : nat :=
  total (fun c => total (fun m => length (fst c) + length (fst m) + texts_size (snd m)) (snd c)) cs.
Lemma in_ctxt_size (k : bytes) es : total (fun m : bytes * list bytes => length k + length (fst m) + texts_size (snd m)) es = length es * length k + es_size es.
Proof. unfold es_size. induction es as [|m es IH]; [reflexivity|]. rewrite !total_cons, IH. cbn [length]. lia. Qed.
Lemma dict_size_eq d : dict_size d = es_size (d_entries d) + ctxt_size (d_ctxt d).
Proof.
  unfold dict_size, foreach, es_size, ctxt_size. f_equal. unfold foreach_ctxt.
  induction (d_ctxt d) as [|[c es] cs IH]; [reflexivity|]. cbn [flat_map]. rewrite total_app, total_cons, <- IH. f_equal.
  rewrite total_map. reflexivity.
Qed.
Definition in_size (c : bytes) (es : list (bytes * list bytes)) : nat :=
  total (fun m => length c + length (fst m) + texts_size (snd m)) es.
Lemma set_in_size c k v es : in_size c (assoc_set k v es) + texts_size (entry_or_new es k) <= in_size c es + length c + length k + texts_size v.
Proof.
  unfold in_size, entry_or_new. induction es as [|[k' v'] es IH]; cbn [assoc_set assoc].
  - rewrite total_cons, total_nil. cbn [fst snd]. change (texts_size []) with 0. lia.
  - destruct (bytes_eqb k k') eqn:E.
    + rewrite !total_cons. cbn [fst snd]. lia.
    + rewrite !total_cons. cbn [fst snd]. destruct (assoc k es); lia.
Qed.
Lemma set_ctxt_size c es' cs : ctxt_size (assoc_set c es' cs) + in_size c (ctxt_or_new cs c) <= ctxt_size cs + in_size c es'.
Proof.
  unfold ctxt_size, ctxt_or_new. induction cs as [|[c' es] cs IH]; cbn [assoc_set assoc].
  - rewrite total_cons, total_nil. cbn [fst snd]. fold (in_size c es'). unfold in_size at 2. rewrite total_nil. lia.
  - destruct (bytes_eqb c c') eqn:E.
    + apply bytes_eqb_eq in E as <-. rewrite !total_cons. cbn [fst snd]. fold (in_size c es') (in_size c es). lia.
    + rewrite !total_cons. cbn [fst snd]. destruct (assoc c cs); lia.
Qed.
Lemma put_singular_size vec s : texts_size (fst (put_singular vec s)) <= texts_size vec + length s.
Proof.
  unfold put_singular, texts_size. destruct vec as [|v0 vs]; cbn [fst]; [rewrite total_cons, total_nil; cbn; lia|].
  destruct (negb _); cbn [fst]; rewrite !total_cons; lia.
Qed.
Lemma put_plural_size vec ss : texts_size (fst (put_plural vec ss)) <= texts_size vec + texts_size ss.
Proof. unfold put_plural. destruct (is_nil vec); cbn [fst]; [lia|]. destruct (negb _); cbn [fst]; lia. Qed.
Lemma ctxt_len_set c es' cs : length (flat_map (fun ce : bytes * list (bytes * list bytes) => List.map (fun e => (fst ce, fst e, snd e)) (snd ce)) (assoc_set c es' cs))
  + length (ctxt_or_new cs c) <= length (flat_map (fun ce : bytes * list (bytes * list bytes) => List.map (fun e => (fst ce, fst e, snd e)) (snd ce)) cs) + length es'.
Proof.
  unfold ctxt_or_new. induction cs as [|[c' es] cs IH]; cbn [assoc_set assoc].
  - cbn [flat_map snd app length]. rewrite app_nil_r, map_length. lia.
  - destruct (bytes_eqb c c'); cbn [flat_map snd]; rewrite !app_length, !map_length; [lia|]. destruct (assoc c cs); lia.
Qed.
Lemma add_size d op : dict_size (fst (add_translation d op)) <= dict_size d + call_size (CallAdd op) /\
  messages (fst (add_translation d op)) <= S (messages d).
Proof.
  rewrite !dict_size_eq. unfold messages, foreach, foreach_ctxt.
  destruct op as [[c|] i s|[c|] i p ss]; cbn [add_translation call_size opt_size].
  - unfold add_ctxt_singular. set (es := ctxt_or_new (d_ctxt d) c). set (vec := entry_or_new es i).
    pose proof (put_singular_size vec s) as P. destruct (put_singular vec s) as [v' col]. cbn [fst set_ctxt d_entries d_ctxt] in *.
    pose proof (set_ctxt_size c (assoc_set i v' es) (d_ctxt d)) as A. pose proof (set_in_size c i v' es) as B. fold es in A. fold vec in B.
    pose proof (ctxt_len_set c (assoc_set i v' es) (d_ctxt d)) as C. pose proof (set_len i v' es) as D. fold es in C. split; lia.
  - unfold add_singular. set (vec := entry_or_new (d_entries d) i). pose proof (put_singular_size vec s) as P.
    destruct (put_singular vec s) as [v' col]. cbn [fst set_entries d_entries d_ctxt] in *.
    pose proof (set_size i v' (d_entries d)) as A. fold vec in A. pose proof (set_len i v' (d_entries d)). unfold entries in *. split; lia.
  - unfold add_ctxt_plural. set (es := ctxt_or_new (d_ctxt d) c). set (vec := entry_or_new es i).
    pose proof (put_plural_size vec ss) as P. destruct (put_plural vec ss) as [v' col]. cbn [fst set_ctxt d_entries d_ctxt] in *.
    pose proof (set_ctxt_size c (assoc_set i v' es) (d_ctxt d)) as A. pose proof (set_in_size c i v' es) as B. fold es in A. fold vec in B.
    pose proof (ctxt_len_set c (assoc_set i v' es) (d_ctxt d)) as C. pose proof (set_len i v' es) as D. fold es in C. split; lia.
  - unfold add_plural. set (vec := entry_or_new (d_entries d) i). pose proof (put_plural_size vec ss) as P.
    destruct (put_plural vec ss) as [v' col]. cbn [fst set_entries d_entries d_ctxt] in *.
    pose proof (set_size i v' (d_entries d)) as A. fold vec in A. pose proof (set_len i v' (d_entries d)). unfold entries in *. split; lia.
Qed.
Lemma calls_dict_size cs : forall d, dict_size (fold_left apply_call cs d) <= dict_size d + total call_size cs /\
  messages (fold_left apply_call cs d) <= messages d + length cs.
Proof.
  induction cs as [|c cs IH]; intro d; cbn [fold_left length]; [rewrite total_nil; lia|]. rewrite total_cons.
  destruct (IH (apply_call d c)) as [I1 I2]. destruct c as [op|p]; cbn [apply_call] in *.
  - destruct (add_size d op) as [A1 A2]. lia.
  - assert (Q : dict_size (if pf_valid (get_plural_forms d) then d else set_plural_forms d p) = dict_size d /\
                messages (if pf_valid (get_plural_forms d) then d else set_plural_forms d p) = messages d) by (destruct (pf_valid _); split; reflexivity).
    destruct Q as [Q1 Q2]. rewrite Q1 in I1. rewrite Q2 in I2. cbn [call_size]. lia.
Qed.
