(** What the parser should log while reading the documents of Spec/PoSpec.v: nothing for
    a tidy document, and exactly the following notes for irregularities. *)
From Verif.Model Require Import Base Log PluralForms Dictionary IConv Stream PoParser.
From Verif.Spec Require Import DictSpec ParserSpec PoSpec.
Local Open Scope list_scope.

(** A warning names the file, the line number, and ends with the text of that line. *)
Definition reported (fn : bytes) (n : Z) (line msg : bytes) : event :=
  EvLog (log_warning (fn ++ bs ":" ++ dec_Z n ++ bs ": warning: " ++ msg ++ bs ": " ++ line)).

(** ** Strings *)
Definition piece_notes (p : piece) : list bytes :=
  match p with Other c => [bs "unhandled escape '\" ++ [c] ++ bs "'"] | _ => [] end.
Definition trail_notes (trail : bytes) : list bytes :=
  if forallb isspace trail then [] else [bs "unexpected garbage after string ignoren"].
Definition string_notes (ck : chunk) : list bytes :=
  List.concat (List.map piece_notes (ck_body ck)) ++ trail_notes (ck_trail ck).
(** in pedantic mode: exactly one blank between keyword and string, and no single white
    space before a continued string *)
Definition head_notes (pedantic : bool) (ck : chunk) : list bytes :=
  (if pedantic && negb (bytes_eqb (ck_lead ck) [c_sp])
   then [bs "keyword and string must be seperated by a single space"] else []) ++ string_notes ck.
Definition more_notes (pedantic : bool) (ck : chunk) : list bytes :=
  (if pedantic && (length (ck_lead ck) =? 1) then [bs "leading whitespace before string"] else []) ++ string_notes ck.

Section Log.
  Variable fn : bytes.
  Variable pedantic : bool.

  (** [n]: number of the first line *)
  Fixpoint more_log (n : Z) (cks : list chunk) : list event :=
    match cks with
    | [] => []
    | ck :: cks' => List.map (reported fn n (chunk_text ck)) (more_notes pedantic ck) ++ more_log (n + 1) cks'
    end.
  Definition lit_log (n : Z) (keyword : bytes) (l : literal) : list event :=
    List.map (reported fn n (keyword ++ chunk_text (lt_head l))) (head_notes pedantic (lt_head l)) ++
    more_log (n + 1) (lt_more l).
  Definition len {A} (l : list A) : Z := Z.of_nat (length l).
  Fixpoint rows_log (n : Z) (rows : list (nat * literal)) : list event :=
    match rows with
    | [] => []
    | r :: rows' => lit_log n (bs "msgstr[" ++ [digit_of (fst r); c_rbr]) (snd r) ++ rows_log (n + len (row_lines r)) rows'
    end.

  (** ** Headers *)
  Definition plural_forms_dec (p q : plural_forms) : {p = q} + {p <> q}.
  Proof. repeat decide equality. Defined.
  Definition hdr_line_notes (d : dictionary) (l : bytes) : list bytes :=
    if starts_with (bs "Content-Type:") l then
      match after (bs "Content-Type: text/plain; charset=") l with
      | Some _ => []
      | None => [bs "malformed Content-Type header"]
      end
    else if starts_with (bs "Plural-Forms:") l then
      match hdr_plural l with
      | [] => [bs "unknown Plural-Forms given"]
      | p :: _ => if pf_valid (get_plural_forms d)
                  then if plural_forms_dec (get_plural_forms d) p then []
                       else [bs "Plural-Forms missmatch between .po file and dictionary"]
                  else []
      end
    else [].
  Fixpoint hdr_lines_notes (d : dictionary) (ls : list bytes) : list bytes :=
    match ls with
    | [] => []
    | l :: ls' => hdr_line_notes d l ++ hdr_lines_notes (fold_left apply_call (List.map CallPlural (hdr_plural l)) d) ls'
    end.
  Definition charset_notes (h : bytes) : list bytes :=
    match last_some (after (bs "Content-Type: text/plain; charset=")) (hdr_lines h) with
    | Some cs => if is_nil cs || bytes_eqb (List.map toupper cs) (bs "CHARSET")
                 then [bs "charset not specified for .po, fallback to utf-8"] else []
    | None => [bs "charset not specified for .po, fallback to utf-8"]
    end.

  (** ** What an addition logs (see C12) *)
  Definition forms_dec (a b : list bytes) : {a = b} + {a <> b}.
  Proof. repeat decide equality. Defined.
  Definition add_log_of (d : dictionary) (op : add_op) : list event :=
    match lookup d (op_key op) with
    | Some old => if is_nil old then [] else if forms_dec (new_forms (Some old) op) old then []
                  else [EvLog (log_warning (collision_text old op))]
    | None => []
    end.
  Definition count_notes (d : dictionary) (rows : list (nat * literal)) : list bytes :=
    if negb (pf_valid (get_plural_forms d)) then [bs "msgstr[N] seen, but no Plural-Forms given"]
    else if negb (Z.of_nat (S (List.list_max (List.map fst rows))) =? get_nplural (get_plural_forms d))%Z
         then [bs "msgstr[N] count doesn't match Plural-Forms.nplural"] else [].

  (** what is noted when an entry has been read: it names the line after the entry,
      number [n] and text [next] *)
  Definition closing_log (n : Z) (next : bytes) (d : dictionary) (e : po_entry) : list event :=
    let adding := List.concat (List.map (add_log_of d) (adds (entry_calls e))) in
    match en_body e with
    | PoStr m =>
        match is_header e with
        | Some h => List.map (reported fn n next) (hdr_lines_notes d (hdr_lines h) ++ charset_notes h)
        | None => adding
        end
    | PoPlural p rows =>
        (if is_nil (adds (entry_calls e)) then [] else List.map (reported fn n next) (count_notes d rows)) ++ adding
    end.

  (** ** Entries, blocks, documents; [d]: the dictionary so far *)
  Definition body_log (n : Z) (b : po_body) : list event :=
    match b with
    | PoStr m => lit_log n (bs "msgstr") m
    | PoPlural p rows => lit_log n (bs "msgid_plural") p ++ rows_log (n + len (lit_lines (bs "msgid_plural") p)) rows
    end.
  Definition ctxt_log (n : Z) (c : option literal) : list event :=
    match c with Some l => lit_log n (bs "msgctxt") l | None => [] end.
  Definition entry_log (n : Z) (next : bytes) (d : dictionary) (e : po_entry) : list event :=
    let n1 := (n + len (ctxt_lines (en_ctxt e)))%Z in
    let n2 := (n1 + len (lit_lines (bs "msgid") (en_id e)))%Z in
    ctxt_log n (en_ctxt e) ++ lit_log n1 (bs "msgid") (en_id e) ++ body_log n2 (en_body e) ++
    closing_log (n2 + len (body_lines (en_body e))) next d e.
  Definition block_log (n : Z) (next : bytes) (d : dictionary) (b : po_block) : list event :=
    match bl_entry b with
    | Some e => entry_log (n + len (bl_comments b)) next d e
    | None => []
    end.
  Definition entries_dict (d : dictionary) (es : list po_entry) : dictionary :=
    fold_left apply_call (List.concat (List.map entry_calls es)) d.
  Fixpoint blocks_log (n : Z) (d : dictionary) (bl : list (po_block * bytes)) : list event :=
    match bl with
    | [] => []
    | (b, sep) :: bl' =>
        block_log n sep d b ++
        blocks_log (n + len (block_lines b) + 1) (entries_dict d (opt_list (bl_entry b))) bl'
    end.
  Definition blocks_len (bl : list (po_block * bytes)) : Z :=
    len (List.concat (List.map (fun b => block_lines (fst b) ++ [snd b]) bl)).
  (** after the last line comes an empty one *)
  Definition doc_log (d : dictionary) (D : document) : list event :=
    blocks_log 1 d (dc_blocks D) ++
    block_log (1 + blocks_len (dc_blocks D)) [] (entries_dict d (blocks_entries (dc_blocks D))) (dc_last D).
End Log.

(** ** Tidy documents *)
Definition plain_piece (p : piece) : Prop := match p with Other _ => False | _ => True end.
Definition tidy_string (ck : chunk) : Prop := Forall plain_piece (ck_body ck) /\ white (ck_trail ck).
Definition tidy_lit (l : literal) : Prop :=
  ck_lead (lt_head l) = [c_sp] /\ tidy_string (lt_head l) /\
  Forall (fun ck => length (ck_lead ck) <> 1 /\ tidy_string ck) (lt_more l).
Definition tidy_literals (e : po_entry) : Prop :=
  match en_ctxt e with Some l => tidy_lit l | None => True end /\ tidy_lit (en_id e) /\
  match en_body e with
  | PoStr m => tidy_lit m
  | PoPlural p rows => tidy_lit p /\ Forall (fun r => tidy_lit (snd r)) rows
  end.

(** an entry with nothing to note, when the dictionary is [d] *)
Definition tidy_entry (d : dictionary) (e : po_entry) : Prop :=
  tidy_literals e /\
  match is_header e with
  | Some h => hdr_lines_notes d (hdr_lines h) = [] /\ charset_notes h = []
  | None =>
      entry_calls e = [] \/
      (lookup d (opt_value (en_ctxt e), lit_value (en_id e)) = None /\
       match en_body e with
       | PoStr _ => True
       | PoPlural _ rows => pf_valid (get_plural_forms d) = true /\
           get_nplural (get_plural_forms d) = Z.of_nat (S (List.list_max (List.map fst rows)))
       end)
  end.
Fixpoint tidy_entries (d : dictionary) (es : list po_entry) : Prop :=
  match es with
  | [] => True
  | e :: es' => tidy_entry d e /\ tidy_entries (entries_dict d [e]) es'
  end.

(** ** Any file: what a diagnostic may say, and which line it quotes *)
Definition warning_texts : list bytes :=
  [bs "unexpected garbage after string ignoren"; bs "keyword and string must be seperated by a single space";
   bs "leading whitespace before string"; bs "malformed Content-Type header"; bs "unknown Plural-Forms given";
   bs "Plural-Forms missmatch between .po file and dictionary"; bs "charset not specified for .po, fallback to utf-8";
   bs "msgstr[N] seen, but no Plural-Forms given"; bs "msgstr[N] count doesn't match Plural-Forms.nplural"].
Definition a_warning (msg : bytes) : Prop :=
  In msg warning_texts \/ exists c, msg = bs "unhandled escape '\" ++ [c] ++ bs "'".
Definition error_texts : list bytes :=
  [bs "unexpected end of line"; bs "string must start with '" ++ [c_dq] ++ bs "'";
   bs "unexpected end of string"; bs "unexpected end of string in handling '\'"; bs "invalid big5 encoding";
   bs "expected 'msgid'"; bs "expected 'msgstr' or 'msgid_plural'"; bs "expected 'msgstr[N] (0 <= N <= 9)'";
   bs "expected 'msgstr[N]'"; bs "expected empty line"].

(** the pieces between newlines; a text with k newlines has k+1 *)
Fixpoint split_lines (b : bytes) : list bytes :=
  match b with
  | [] => [[]]
  | c :: b' => if byte_eqb c c_lf then [] :: split_lines b'
               else match split_lines b' with l :: ls => (c :: l) :: ls | [] => [[c]] end
  end.
(** without a byte order mark at the beginning of the file *)
Definition file_lines (b : bytes) : list bytes := split_lines (drop_bom b).
(** the text of line number [n]; behind the end the last piece stays *)
Definition line_no (b : bytes) (n : Z) : bytes :=
  nth (Nat.min (Z.to_nat n - 1) (length (file_lines b) - 1)) (file_lines b) [].

(** one line of the log of a parse of file [fn], contents [b], that asked for the
    additions [ops] and read up to line [hi] *)
Definition diagnostic (fn b : bytes) (hi : Z) (ops : list add_op) (l : log_stmt) : Prop :=
  (exists n msg, (1 <= n <= hi)%Z /\ a_warning msg /\
     l = log_warning (fn ++ bs ":" ++ dec_Z n ++ bs ": warning: " ++ msg ++ bs ": " ++ line_no b n)) \/
  (exists n msg, (1 <= n <= hi)%Z /\ In msg error_texts /\
     l = log_error (fn ++ bs ":" ++ dec_Z n ++ bs ": error: " ++ msg ++ bs ": " ++ line_no b n)) \/
  (exists old op, In op ops /\ l = log_warning (collision_text old op)) \/
  (exists text, l = log_error (bs "error: tinygettext:iconv: invalid multibyte sequence in:  " ++ [c_dq] ++ text ++ [c_dq])).

(** ** Logs that differ in some lines only *)
(** [thins P a b]: [b] is [a] without some events that satisfy [P] *)
Inductive thins (P : event -> Prop) : list event -> list event -> Prop :=
| th_nil : thins P [] []
| th_keep e a b : thins P a b -> thins P (e :: a) (e :: b)
| th_drop e a b : P e -> thins P a b -> thins P (e :: a) b.
(** the two warnings of pedantic mode *)
Definition pedantic_warning (fn : bytes) (e : event) : Prop :=
  exists n msg line, In msg [bs "keyword and string must be seperated by a single space"; bs "leading whitespace before string"] /\
    e = EvLog (log_warning (fn ++ bs ":" ++ dec_Z n ++ bs ": warning: " ++ msg ++ bs ": " ++ line)).
