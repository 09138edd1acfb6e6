(** What a PO file is, and what it means, for someone who has never seen the parser.

    A document is given as a tree ([document]); [doc_text] is the text of the file,
    [doc_ok] the well-formedness conditions and [read_doc] its meaning: the sequence
    of additions to the dictionary. *)
From Verif.Model Require Import Base Log PluralForms Dictionary IConv Stream PoParser.
Local Open Scope list_scope.

(** ** String literals *)

(** A literal is written piece by piece. *)
Inductive piece :=
| Raw (c : byte)              (* a character standing for itself *)
| Esc (letter : byte)         (* backslash and a letter of the table below *)
| Other (c : byte)            (* backslash and any other character: both are kept *)
| Pair (lead trail : byte).   (* a double-byte character of a BIG5 file *)

(** the PO escapes: letter after the backslash, character meant *)
Definition escapes : list (byte * byte) :=
  [(chr 97, chr 7); (chr 98, chr 8); (chr 118, chr 11); (chr 110, chr 10); (chr 116, chr 9); (chr 114, chr 13);
   (c_dq, c_dq); (c_bsl, c_bsl)].
Fixpoint meaning_of (letter : byte) (t : list (byte * byte)) : option byte :=
  match t with
  | [] => None
  | (l, v) :: t' => if byte_eqb letter l then Some v else meaning_of letter t'
  end.

Definition piece_text (p : piece) : bytes :=
  match p with
  | Raw c => [c]
  | Esc l => [c_bsl; l]
  | Other c => [c_bsl; c]
  | Pair a b => [a; b]
  end.
Definition piece_value (p : piece) : bytes :=
  match p with
  | Raw c => [c]
  | Esc l => match meaning_of l escapes with Some v => [v] | None => [] end
  | Other c => [c_bsl; c]
  | Pair a b => [a; b]
  end.

(** lead byte of a BIG5 double-byte character: 0x81 .. 0xfe *)
Definition is_lead (c : byte) : Prop := (129 <= code c <= 254)%N.

(** [big5]: a header has declared the file to be BIG5 *)
Definition piece_ok (big5 : bool) (p : piece) : Prop :=
  match p with
  | Raw c => c <> c_dq /\ c <> c_bsl /\ c <> c_lf /\ (big5 = true -> ~ is_lead c)
  | Esc l => meaning_of l escapes <> None
  | Other c => meaning_of c escapes = None /\ c <> c_lf
  | Pair a b => big5 = true /\ is_lead a /\ b <> c_lf
  end.

Definition white (l : bytes) : Prop := Forall (fun c => isspace c = true) l.
Definition one_line (l : bytes) : Prop := ~ In c_lf l.
(** on platforms whose ctype functions reject negative chars ([strict]): no byte >= 0x80 *)
Definition clean (strict : bool) (l : bytes) : Prop := strict = true -> existsb hi l = false.

(** One quoted string on a line: white space, the string, and whatever follows the
    closing quote (ignored). *)
Record chunk := { ck_lead : bytes; ck_body : list piece; ck_trail : bytes }.
Definition chunk_text (c : chunk) : bytes :=
  ck_lead c ++ c_dq :: List.concat (List.map piece_text (ck_body c)) ++ c_dq :: ck_trail c.
Definition chunk_value (c : chunk) : bytes := List.concat (List.map piece_value (ck_body c)).
Definition chunk_ok (strict big5 : bool) (c : chunk) : Prop :=
  white (ck_lead c) /\ one_line (ck_lead c) /\ Forall (piece_ok big5) (ck_body c) /\
  one_line (ck_trail c) /\ clean strict (ck_trail c).

(** A literal: the string on the keyword's line and its continuation lines. *)
Record literal := { lt_head : chunk; lt_more : list chunk }.
Definition lit_lines (keyword : bytes) (l : literal) : list bytes :=
  (keyword ++ chunk_text (lt_head l)) :: List.map chunk_text (lt_more l).
Definition lit_value (l : literal) : bytes := List.concat (List.map chunk_value (lt_head l :: lt_more l)).
Definition lit_ok (strict big5 : bool) (l : literal) : Prop :=
  Forall (chunk_ok strict big5) (lt_head l :: lt_more l).

(** ** Entries *)
Inductive po_body :=
| PoStr (msgstr : literal)
| PoPlural (msgid_plural : literal) (rows : list (nat * literal)).   (* msgstr[n] *)
Record po_entry := { en_ctxt : option literal; en_id : literal; en_body : po_body }.

Definition digit_of (n : nat) : byte := chr (48 + N.of_nat n).
Definition row_lines (r : nat * literal) : list bytes :=
  lit_lines (bs "msgstr[" ++ [digit_of (fst r); c_rbr]) (snd r).
Definition body_lines (b : po_body) : list bytes :=
  match b with
  | PoStr m => lit_lines (bs "msgstr") m
  | PoPlural p rows => lit_lines (bs "msgid_plural") p ++ List.concat (List.map row_lines rows)
  end.
Definition ctxt_lines (c : option literal) : list bytes :=
  match c with Some l => lit_lines (bs "msgctxt") l | None => [] end.
Definition entry_lines (e : po_entry) : list bytes :=
  ctxt_lines (en_ctxt e) ++ lit_lines (bs "msgid") (en_id e) ++ body_lines (en_body e).

Definition body_ok (strict big5 : bool) (b : po_body) : Prop :=
  match b with
  | PoStr m => lit_ok strict big5 m
  | PoPlural p rows => lit_ok strict big5 p /\ rows <> [] /\
      Forall (fun r => fst r < 10 /\ lit_ok strict big5 (snd r)) rows
  end.

(** ** The header: the msgstr of the empty msgid *)
Definition is_header (e : po_entry) : option bytes :=
  match en_body e with
  | PoStr m => if is_nil (lit_value (en_id e)) then Some (lit_value m) else None
  | PoPlural _ _ => None
  end.
(** its newline-terminated lines *)
Fixpoint hdr_lines_from (acc h : bytes) : list bytes :=
  match h with
  | [] => []
  | c :: h' => if byte_eqb c c_lf then acc :: hdr_lines_from [] h' else hdr_lines_from (acc ++ [c]) h'
  end.
Definition hdr_lines (h : bytes) : list bytes := hdr_lines_from [] h.
(** the charset: what the last full Content-Type line says *)
Fixpoint last_some {A} (f : bytes -> option A) (ls : list bytes) : option A :=
  match ls with
  | [] => None
  | l :: ls' => match last_some f ls' with Some a => Some a | None => f l end
  end.
Definition after (p l : bytes) : option bytes :=
  if starts_with p l then Some (skipn (length p) l) else None.
Definition hdr_charset (h : bytes) : bytes :=
  match last_some (after (bs "Content-Type: text/plain; charset=")) (hdr_lines h) with
  | Some cs => let cs := List.map toupper cs in
               if is_nil cs || bytes_eqb cs (bs "CHARSET") then bs "UTF-8" else cs
  | None => bs "UTF-8"
  end.
(** the plural forms: every Plural-Forms line that is recognised *)
Definition hdr_plural (l : bytes) : list plural_forms :=
  if starts_with (bs "Plural-Forms:") l then
    match from_string false l with
    | Ret p => if pf_valid p then [p] else []
    | _ => []
    end
  else [].
Definition hdr_plurals (h : bytes) : list plural_forms := List.concat (List.map hdr_plural (hdr_lines h)).

(** BIG5 mode after an entry *)
Definition big5_after (big5 : bool) (e : po_entry) : bool :=
  match is_header e with
  | Some h => big5 || bytes_eqb (hdr_charset h) (bs "BIG5")
  | None => big5
  end.

Definition entry_ok (strict big5 : bool) (e : po_entry) : Prop :=
  (match en_ctxt e with Some l => lit_ok strict big5 l | None => True end) /\
  lit_ok strict big5 (en_id e) /\ body_ok strict big5 (en_body e) /\
  (match is_header e with Some h => clean strict h | None => True end).

(** ** Documents *)

(** A block: comments, possibly an entry, and the separating line; or a damaged
    entry (see below). *)
Record po_block := { bl_comments : list bytes; bl_entry : option po_entry }.
Definition block_lines (b : po_block) : list bytes :=
  bl_comments b ++ match bl_entry b with Some e => entry_lines e | None => [] end.

(** A comment line; a line that separates entries: white space only, or '#' alone or
    followed by white space. *)
Definition is_comment (l : bytes) : Prop := exists l', l = c_hash :: l' /\ one_line l'.
Definition is_blank (l : bytes) : Prop :=
  one_line l /\ (white l \/ l = [c_hash] \/ exists c l', l = c_hash :: c :: l' /\ isspace c = true).
Definition separator_ok (b : po_block) (sep : bytes) : Prop :=
  is_blank sep /\ (bl_entry b = None -> white sep).

(** complete blocks with their separators, then a last block ended by end of file *)
Record document := { dc_blocks : list (po_block * bytes); dc_last : po_block }.

Definition doc_lines (d : document) : list bytes :=
  List.concat (List.map (fun b => block_lines (fst b) ++ [snd b]) (dc_blocks d)) ++ block_lines (dc_last d).
Fixpoint unlines (ls : list bytes) : bytes :=
  match ls with [] => [] | l :: ls' => l ++ c_lf :: unlines ls' end.
Definition doc_text (d : document) : bytes := unlines (doc_lines d).

Definition opt_list {A} (o : option A) : list A := match o with Some a => [a] | None => [] end.
Definition blocks_entries (bl : list (po_block * bytes)) : list po_entry :=
  List.concat (List.map (fun b => opt_list (bl_entry (fst b))) bl).
Definition doc_entries (d : document) : list po_entry :=
  blocks_entries (dc_blocks d) ++ opt_list (bl_entry (dc_last d)).

(** BIG5 mode after a list of entries *)
Definition big5_end (big5 : bool) (es : list po_entry) : bool := fold_left big5_after es big5.

Fixpoint entries_ok (strict big5 : bool) (es : list po_entry) : Prop :=
  match es with
  | [] => True
  | e :: es' => entry_ok strict big5 e /\ entries_ok strict (big5_after big5 e) es'
  end.
Definition doc_ok (strict : bool) (d : document) : Prop :=
  Forall (fun b => Forall is_comment (bl_comments (fst b)) /\ separator_ok (fst b) (snd b)) (dc_blocks d) /\
  Forall is_comment (bl_comments (dc_last d)) /\
  entries_ok strict false (doc_entries d).

(** ** Meaning *)

(** msgstr[n]: form number i is the last one written for i; missing forms are empty *)
Fixpoint form (i : nat) (rows : list (nat * bytes)) : bytes :=
  match rows with
  | [] => []
  | (n, v) :: rows' => if (n =? i) && negb (existsb (fun r => fst r =? i) rows') then v else form i rows'
  end.
Definition forms (rows : list (nat * bytes)) : list bytes :=
  List.map (fun i => form i rows) (List.seq 0 (S (List.list_max (List.map fst rows)))).

Section Meaning.
  Context {I : iconv_impl}.
  Variable ndebug : bool.
  Variable charset : bytes.   (* the dictionary's charset *)

  (** translated strings are converted one after the other *)
  Fixpoint convert_rows (c : iconv I) (rows : list (nat * literal)) : outcome (list (nat * bytes)) * iconv I :=
    match rows with
    | [] => (Ret [], c)
    | (n, l) :: rows' =>
        match convert ndebug c (lit_value l) with
        | (Ret v, c', _) =>
            match convert_rows c' rows' with
            | (Ret vs, c'') => (Ret ((n, v) :: vs), c'')
            | r => r
            end
        | (Exn e, c', _) => (Exn e, c')
        | (Ub u, c', _) => (Ub u, c')
        | (AssertFail, c', _) => (AssertFail, c')
        | (OutOfFuel, c', _) => (OutOfFuel, c')
        end
    end.

  Definition opt_value (o : option literal) : option bytes :=
    match o with Some l => Some (lit_value l) | None => None end.

  (** what one entry does: how it ends, the converter afterwards, the dictionary calls *)
  Definition read_entry (c : iconv I) (e : po_entry) : outcome unit * iconv I * list dict_call :=
    match en_body e with
    | PoStr m =>
        if is_nil (lit_value (en_id e)) then
          let h := lit_value m in
          let '(o, c', _) := set_charsets false c (hdr_charset h) charset in
          (o, c', List.map CallPlural (hdr_plurals h))
        else if is_nil (lit_value m) then (Ret tt, c, [])
        else
          let '(o, c', _) := convert ndebug c (lit_value m) in
          match o with
          | Ret v => (Ret tt, c', [CallAdd (AddSingular (opt_value (en_ctxt e)) (lit_value (en_id e)) v)])
          | _ => (omap (fun _ => tt) o, c', [])
          end
    | PoPlural p rows =>
        match convert_rows c rows with
        | (Ret vs, c') =>
            (Ret tt, c',
             if forallb (fun r => is_nil (lit_value (snd r))) rows then []
             else [CallAdd (AddPlural (opt_value (en_ctxt e)) (lit_value (en_id e)) (lit_value p) (forms vs))])
        | (o, c') => (omap (fun _ => tt) o, c', [])
        end
    end.

  (** a file: its entries one after the other; a failure ends it *)
  Fixpoint read_entries (c : iconv I) (es : list po_entry) : outcome unit * iconv I * list dict_call :=
    match es with
    | [] => (Ret tt, c, [])
    | e :: es' =>
        match read_entry c e with
        | (Ret _, c', calls) => let '(o, c'', calls') := read_entries c' es' in (o, c'', calls ++ calls')
        | r => r
        end
    end.
End Meaning.

(** ** Documents whose headers all name the dictionary's own charset: no conversion *)
Definition same_charset (a b : bytes) : Prop := List.map toupper a = List.map toupper b.
Definition own_charset (charset : bytes) (es : list po_entry) : Prop :=
  Forall (fun e => match is_header e with Some h => same_charset (hdr_charset h) charset | None => True end) es.
(** what an entry then does *)
Definition entry_calls (e : po_entry) : list dict_call :=
  match en_body e with
  | PoStr m =>
      if is_nil (lit_value (en_id e)) then List.map CallPlural (hdr_plurals (lit_value m))
      else if is_nil (lit_value m) then []
      else [CallAdd (AddSingular (opt_value (en_ctxt e)) (lit_value (en_id e)) (lit_value m))]
  | PoPlural p rows =>
      if forallb (fun r => is_nil (lit_value (snd r))) rows then []
      else [CallAdd (AddPlural (opt_value (en_ctxt e)) (lit_value (en_id e)) (lit_value p)
                       (forms (List.map (fun r => (fst r, lit_value (snd r))) rows)))]
  end.

(** ** Files whose last newline is missing *)

(** The last line of a document is a comment, a msgstr[N] line, or a continuation
    line of a msgstr (and not: the only line of a msgstr). *)
Definition unterminated_hangs (b : po_block) : Prop :=
  match bl_entry b with
  | None => bl_comments b <> []
  | Some e => match en_body e with PoStr m => lt_more m <> [] | PoPlural _ _ => True end
  end.
Definition one_line_msgstr (b : po_block) : Prop :=
  match bl_entry b with
  | None => False
  | Some e => match en_body e with PoStr m => lt_more m = [] | PoPlural _ _ => False end
  end.

(** ** Damaged entries: nothing after the context, the msgid or the msgid_plural *)
Inductive damaged :=
| OnlyContext (c : literal)
| NoStr (c : option literal) (i : literal)
| NoRows (c : option literal) (i p : literal).
Definition damaged_lines (x : damaged) : list bytes :=
  match x with
  | OnlyContext c => lit_lines (bs "msgctxt") c
  | NoStr c i => ctxt_lines c ++ lit_lines (bs "msgid") i
  | NoRows c i p => ctxt_lines c ++ lit_lines (bs "msgid") i ++ lit_lines (bs "msgid_plural") p
  end.
Definition opt_lit_ok (strict big5 : bool) (o : option literal) : Prop :=
  match o with Some l => lit_ok strict big5 l | None => True end.
Definition damaged_ok (strict big5 : bool) (x : damaged) : Prop :=
  match x with
  | OnlyContext c => lit_ok strict big5 c
  | NoStr c i => opt_lit_ok strict big5 c /\ lit_ok strict big5 i
  | NoRows c i p => opt_lit_ok strict big5 c /\ lit_ok strict big5 i /\ lit_ok strict big5 p
  end.
(** comments such as "#: file.c:12", "#, c-format", "#. note", "#~ old" *)
Definition solid_comment (strict : bool) (l : bytes) : Prop :=
  exists x l', l = c_hash :: x :: l' /\ one_line (x :: l') /\ isspace x = false /\ clean strict [x].

(** the lines of complete blocks *)
Definition blocks_lines (bl : list (po_block * bytes)) : list bytes :=
  List.concat (List.map (fun b => block_lines (fst b) ++ [snd b]) bl).
Definition block_ok (b : po_block * bytes) : Prop :=
  Forall is_comment (bl_comments (fst b)) /\ separator_ok (fst b) (snd b).

(** ** Writing byte strings (independent of the tree above)

    [written v t]: [t] is a way of writing the byte string [v] between quotes.
    A character that has an escape may be written with it; the quote, the backslash
    and newline must be. *)
Inductive written : bytes -> bytes -> Prop :=
| w_nil : written [] []
| w_raw c v t : c <> c_dq -> c <> c_bsl -> c <> c_lf -> written v t -> written (c :: v) (c :: t)
| w_esc c l v t : In (l, c) escapes -> written v t -> written (c :: v) (c_bsl :: l :: t).

(** [quoted parts lines]: each line is white space, a quote, one part as written, a
    quote, white space. *)
Inductive quoted : list bytes -> list bytes -> Prop :=
| q_nil : quoted [] []
| q_cons v t lead trail parts lines :
    written v t -> white lead -> one_line lead -> white trail -> one_line trail ->
    quoted parts lines -> quoted (v :: parts) ((lead ++ c_dq :: t ++ c_dq :: trail) :: lines).
(** [spelled keyword v lines]: keyword and the string [v] in one or more parts on as
    many lines *)
Definition spelled (keyword v : bytes) (lines : list bytes) : Prop :=
  exists parts first more, v = List.concat parts /\ quoted parts (first :: more) /\ lines = (keyword ++ first) :: more.
(** an optional context line *)
Definition opt_spelled (o : option bytes) (lines : list bytes) : Prop :=
  match o with Some v => spelled (bs "msgctxt") v lines | None => lines = [] end.

(** the characters of a BIG5 text that may stand in a string as they are: single bytes
    other than quote, backslash and newline, and pairs of a lead byte and any byte but newline *)
Inductive big5_chars : bytes -> Prop :=
| b5_nil : big5_chars []
| b5_one c v : c <> c_dq -> c <> c_bsl -> c <> c_lf -> ~ is_lead c -> big5_chars v -> big5_chars (c :: v)
| b5_two a b v : is_lead a -> b <> c_lf -> big5_chars v -> big5_chars (a :: b :: v).
