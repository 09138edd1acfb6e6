(** Model of src/po_parser.cpp and include/tinygettext/po_parser.hpp.

    Simplifications: line_number is an unbounded Z (its growth is bounded by a
    theorem); lines are shorter than 2^32 bytes so that the casts of
    current_line.size() to unsigned int are the identity; the [if ((false))] debug
    blocks (po_parser.cpp:438-446, 467-473) are dropped; the unused member
    [running] is dropped. *)
From Verif.Model Require Import Base Log PluralForms Dictionary IConv Stream.
Local Open Scope list_scope.

(** Everything about the environment the parser's behaviour depends on. *)
Record config := {
  cf_pedantic : bool;      (* POParser::pedantic, po_parser.cpp:38 *)
  cf_strict : bool;        (* ctype functions reject negative chars *)
  cf_ndebug : bool;        (* assert() compiled out *)
  cf_fuel : nat;           (* bound on iterations of each unbounded loop *)
  cf_iconv : iconv_impl }.

(** Calls the parser makes on the dictionary (ghost record): add_translation, or
    a recognised Plural-Forms line being offered (po_parser.cpp:270-283: it is
    stored only if the dictionary has none). *)
Inductive dict_call :=
| CallAdd (op : add_op)
| CallPlural (p : plural_forms).

Definition apply_call (d : dictionary) (c : dict_call) : dictionary :=
  match c with
  | CallAdd op => fst (add_translation d op)
  | CallPlural p => if pf_valid (get_plural_forms d) then d else set_plural_forms d p
  end.

(** POParser's members, po_parser.hpp:34-46 *)
Record pst (I : iconv_impl) := {
  p_in : istream;
  p_dict : dictionary;
  p_eof : bool;
  p_big5 : bool;
  p_line : Z;
  p_cur : bytes;
  p_conv : iconv I;
  p_tr : list event;            (* effects so far *)
  p_calls : list dict_call }.   (* ghost: dictionary calls so far *)
Arguments p_in {I} p. Arguments p_dict {I} p. Arguments p_eof {I} p. Arguments p_big5 {I} p.
Arguments p_line {I} p. Arguments p_cur {I} p. Arguments p_conv {I} p. Arguments p_tr {I} p.
Arguments p_calls {I} p.

Section Updates.
  Context {I : iconv_impl}.
  Definition st_line (s : pst I) (i : istream) (cur : bytes) (eof : bool) (ln : Z) : pst I :=
    {| p_in := i; p_dict := p_dict s; p_eof := eof; p_big5 := p_big5 s; p_line := ln; p_cur := cur;
       p_conv := p_conv s; p_tr := p_tr s; p_calls := p_calls s |}.
  Definition st_cur (s : pst I) (cur : bytes) : pst I :=
    st_line s (p_in s) cur (p_eof s) (p_line s).
  Definition st_tr (s : pst I) (tr : list event) : pst I :=
    {| p_in := p_in s; p_dict := p_dict s; p_eof := p_eof s; p_big5 := p_big5 s; p_line := p_line s;
       p_cur := p_cur s; p_conv := p_conv s; p_tr := tr; p_calls := p_calls s |}.
  Definition st_dict (s : pst I) (d : dictionary) (c : list dict_call) : pst I :=
    {| p_in := p_in s; p_dict := d; p_eof := p_eof s; p_big5 := p_big5 s; p_line := p_line s;
       p_cur := p_cur s; p_conv := p_conv s; p_tr := p_tr s; p_calls := c |}.
  Definition st_conv (s : pst I) (c : iconv I) : pst I :=
    {| p_in := p_in s; p_dict := p_dict s; p_eof := p_eof s; p_big5 := p_big5 s; p_line := p_line s;
       p_cur := p_cur s; p_conv := c; p_tr := p_tr s; p_calls := p_calls s |}.
  Definition st_big5 (s : pst I) (b : bool) : pst I :=
    {| p_in := p_in s; p_dict := p_dict s; p_eof := p_eof s; p_big5 := b; p_line := p_line s;
       p_cur := p_cur s; p_conv := p_conv s; p_tr := p_tr s; p_calls := p_calls s |}.
End Updates.

Section Parser.
  Variable cf : config.
  Variable filename : bytes.
  Variable use_fuzzy : bool.
  Local Notation I := (cf_iconv cf).
  Local Notation P := (M (pst I)).
  Local Open Scope mon_scope.

  (** POParser::POParser, po_parser.cpp:49-61 *)
  Definition init_state (i : istream) (d : dictionary) : pst I :=
    {| p_in := i; p_dict := d; p_eof := false; p_big5 := false; p_line := 0%Z; p_cur := [];
       p_conv := iconv_new I; p_tr := []; p_calls := [] |}.

  Definition emit (e : list event) : P unit := mmod (fun s => st_tr s (p_tr s ++ e)).

  (** POParser::warning, po_parser.cpp:67-72 *)
  Definition warning (msg : bytes) : P unit :=
    s <- mget (fun s => s);;
    emit [EvLog (log_warning (filename ++ bs ":" ++ dec_Z (p_line s) ++ bs ": warning: " ++ msg
                              ++ bs ": " ++ p_cur s))].

  (** POParser::next_line, po_parser.cpp:87-93 *)
  Definition next_line : P unit :=
    mmod (fun s => match getline (p_in s) (p_cur s) with
                   | (i, cur, ok) => st_line s i cur (if ok then p_eof s else true) (p_line s + 1)
                   end).

  (** ctype calls on a plain char *)
  Definition ctype {A} (f : byte -> A) (c : byte) : P A :=
    if cf_strict cf && hi c then mfail (Ub UbCtype) else mret (f c).

  (** current_line[i]: i = size() yields the terminating NUL, beyond is undefined. *)
  Definition cur_at (i : nat) : P byte :=
    cur <- mget p_cur;;
    if i <? length cur then mret (nth i cur c_nul)
    else if i =? length cur then mret c_nul
    else mfail (Ub UbIndex).

  (** is_empty_line's loop, po_parser.cpp:315-319 *)
  Fixpoint all_space (l : bytes) : P bool :=
    match l with
    | [] => mret true
    | c :: l' => b <- ctype isspace c;; if b then all_space l' else mret false
    end.

  (** POParser::is_empty_line, po_parser.cpp:302-322 *)
  Definition is_empty_line : P bool :=
    cur <- mget p_cur;;
    match cur with
    | [] => mret true
    | c :: cur' =>
        if byte_eqb c c_hash then
          match cur' with
          | [] => mret true
          | c1 :: _ => ctype isspace c1
          end
        else all_space cur
    end.

  (** the recovery loop of error(), po_parser.cpp:80-82; every iteration consumes
      input or sets eof, so the fuel below always suffices (proved). *)
  Fixpoint recover (fuel : nat) : P unit :=
    match fuel with
    | O => mfail OutOfFuel
    | S f =>
        next_line;;
        eof <- mget p_eof;;
        if eof then mret tt
        else e <- is_empty_line;; if e then mret tt else recover f
    end.

  (** POParser::error, po_parser.cpp:74-85 *)
  Definition error {A} (msg : bytes) : P A :=
    s <- mget (fun s => s);;
    emit [EvLog (log_error (filename ++ bs ":" ++ dec_Z (p_line s) ++ bs ": error: " ++ msg
                            ++ bs ": " ++ p_cur s))];;
    recover (S (S (length (is_rest (p_in s)))));;
    mfail (Exn ExPo).

  (** the escape switch, po_parser.cpp:129-138: [None] is the default case *)
  Definition unescape (c : byte) : option byte :=
    if byte_eqb c (chr 97) then Some (chr 7)          (* a *)
    else if byte_eqb c (chr 98) then Some (chr 8)     (* b *)
    else if byte_eqb c (chr 118) then Some (chr 11)   (* v *)
    else if byte_eqb c (chr 110) then Some (chr 10)   (* n *)
    else if byte_eqb c (chr 116) then Some (chr 9)    (* t *)
    else if byte_eqb c (chr 114) then Some (chr 13)   (* r *)
    else if byte_eqb c c_dq then Some c_dq
    else if byte_eqb c c_bsl then Some c_bsl
    else None.

  (** big5 lead byte test, po_parser.cpp:107 *)
  Definition big5_lead (c : byte) : bool := ((129 <=? code c) && (code c <=? 254))%N.

  (** the scanning loop of get_string_line, po_parser.cpp:104-152. Each iteration
      advances i, so [S (length current_line)] iterations always suffice (proved).
      Returns the index of the closing quote and the text appended to [out]. *)
  Fixpoint scan_string (fuel : nat) (i : nat) (out : bytes) : P (nat * bytes) :=
    match fuel with
    | O => mfail OutOfFuel
    | S f =>
        c <- cur_at i;;
        if byte_eqb c c_dq then mret (i, out)
        else
          size <- mget (fun s => length (p_cur s));;
          big5 <- mget p_big5;;
          if big5 && big5_lead c then
            if size <=? i + 1 then error (bs "invalid big5 encoding")
            else c1 <- cur_at (i + 1);; scan_string f (i + 2) (out ++ [c; c1])
          else if size <=? i then error (bs "unexpected end of string")
          else if byte_eqb c c_bsl then
            if size <=? i + 1 then error (bs "unexpected end of string in handling '\'")
            else
              c1 <- cur_at (i + 1);;
              match unescape c1 with
              | Some e => scan_string f (i + 2) (out ++ [e])
              | None =>
                  warning (bs "unhandled escape '\" ++ [c1] ++ bs "'");;
                  scan_string f (i + 2) (out ++ [c; c1])
              end
          else scan_string f (i + 1) (out ++ [c])
    end.

  (** the trailing-garbage loop, po_parser.cpp:155-160 *)
  Fixpoint check_garbage (l : bytes) : P unit :=
    match l with
    | [] => mret tt
    | c :: l' =>
        b <- ctype isspace c;;
        if b then check_garbage l'
        else warning (bs "unexpected garbage after string ignoren")
    end.

  (** POParser::get_string_line, po_parser.cpp:95-161 *)
  Definition get_string_line (out : bytes) (skip : nat) : P bytes :=
    size <- mget (fun s => length (p_cur s));;
    if size <=? skip + 1 then error (bs "unexpected end of line")
    else
      c <- cur_at skip;;
      if negb (byte_eqb c c_dq) then error (bs "expected start of string '" ++ [c_dq] ++ bs "'")
      else
        r <- scan_string (S size) (skip + 1) out;;
        cur <- mget p_cur;;
        check_garbage (skipn (S (fst r)) cur);;
        mret (snd r).

  (** the "keyword and string not separated by a single space" loop,
      po_parser.cpp:180-199 *)
  Fixpoint skip_to_string (fuel : nat) (out : bytes) (skip : nat) : P bytes :=
    match fuel with
    | O => mfail OutOfFuel
    | S f =>
        size <- mget (fun s => length (p_cur s));;
        if size <=? skip then error (bs "unexpected end of line")
        else
          c <- cur_at skip;;
          if byte_eqb c c_dq then get_string_line out skip
          else
            b <- ctype isspace c;;
            if negb b then error (bs "string must start with '" ++ [c_dq] ++ bs "'")
            else skip_to_string f out (skip + 1)
    end.

  (** the for loop at po_parser.cpp:204-223: position of a quote preceded only by
      white space *)
  Fixpoint find_quote (i : nat) (l : bytes) : P (option nat) :=
    match l with
    | [] => mret None
    | c :: l' =>
        if byte_eqb c c_dq then mret (Some i)
        else b <- ctype isspace c;; if b then find_quote (S i) l' else mret None
    end.

  (** continuation lines, po_parser.cpp:202-225 ([goto next]) *)
  Fixpoint continuation (fuel : nat) (out : bytes) : P bytes :=
    match fuel with
    | O => mfail OutOfFuel
    | S f =>
        next_line;;
        cur <- mget p_cur;;
        q <- find_quote 0 cur;;
        match q with
        | Some i =>
            (if (i =? 1) && cf_pedantic cf
             then warning (bs "leading whitespace before string") else mret tt);;
            out' <- get_string_line out i;;
            continuation f out'
        | None => mret out
        end
    end.

  (** POParser::get_string, po_parser.cpp:163-226 *)
  Definition get_string (skip : nat) : P bytes :=
    size <- mget (fun s => length (p_cur s));;
    if size <=? skip + 1 then error (bs "unexpected end of line")
    else
      c0 <- cur_at skip;;
      c1 <- (if byte_eqb c0 c_sp then cur_at (skip + 1) else mret c_nul);;
      out <- (if byte_eqb c0 c_sp && byte_eqb c1 c_dq then get_string_line [] (skip + 1)
              else
                (if cf_pedantic cf
                 then warning (bs "keyword and string must be seperated by a single space")
                 else mret tt);;
                skip_to_string (S size) [] skip);;
      continuation (cf_fuel cf) out.

  (** POParser::prefix, po_parser.cpp:324-328 *)
  Definition prefix (p : bytes) : P bool := mget (fun s => starts_with p (p_cur s)).

  Definition dict_call_ (c : dict_call) : P unit :=
    mmod (fun s => st_dict s (apply_call (p_dict s) c) (p_calls s ++ [c])).

  (** dict.add_translation(...) with the warnings it logs *)
  Definition dict_add (op : add_op) : P unit :=
    d <- mget p_dict;;
    emit (List.map EvLog (snd (add_translation d op)));;
    dict_call_ (CallAdd op).

  (** conv.convert(...) *)
  Definition do_convert (text : bytes) : P bytes :=
    fun s => let '(o, c, ev) := convert (cf_ndebug cf) (p_conv s) text in
             (o, st_tr (st_conv s c) (p_tr s ++ ev)).

  (** conv.set_charsets(...) *)
  Definition do_set_charsets (from to : bytes) : P unit :=
    fun s => let '(o, c, ev) := set_charsets (cf_strict cf) (p_conv s) from to in
             (o, st_tr (st_conv s c) (p_tr s ++ ev)).

  Definition content_type : bytes := bs "Content-Type:".
  Definition content_type_full : bytes := bs "Content-Type: text/plain; charset=".
  Definition plural_forms_key : bytes := bs "Plural-Forms:".

  (** one newline-terminated header line, po_parser.cpp:245-284; returns the new
      from_charset *)
  Definition header_line (line charset : bytes) : P bytes :=
    if starts_with content_type line then
      if starts_with content_type_full line then
        let cs := skipn (length content_type_full) line in
        if cf_strict cf && existsb hi cs then mfail (Ub UbCtype)
        else mret (List.map toupper cs)
      else warning (bs "malformed Content-Type header");; mret charset
    else if starts_with plural_forms_key line then
      pf <- mlift (from_string (cf_strict cf) line);;
      (if negb (pf_valid pf) then warning (bs "unknown Plural-Forms given")
       else
         d <- mget p_dict;;
         (if pf_valid (get_plural_forms d) then
            if negb (pf_eqb (get_plural_forms d) pf)
            then warning (bs "Plural-Forms missmatch between .po file and dictionary")
            else mret tt
          else mret tt);;
         dict_call_ (CallPlural pf));;
      mret charset
    else mret charset.

  (** the header loop, po_parser.cpp:239-287; [acc] is header.substr(start, i-start) *)
  Fixpoint header_loop (header acc charset : bytes) : P bytes :=
    match header with
    | [] => mret charset
    | c :: h' =>
        if byte_eqb c c_lf then
          charset' <- header_line acc charset;; header_loop h' [] charset'
        else header_loop h' (acc ++ [c]) charset
    end.

  (** POParser::parse_header, po_parser.cpp:236-300 *)
  Definition parse_header (header : bytes) : P unit :=
    charset <- header_loop header [] [];;
    charset' <- (if is_nil charset || bytes_eqb charset (bs "CHARSET") then
                   warning (bs "charset not specified for .po, fallback to utf-8");; mret (bs "UTF-8")
                 else if bytes_eqb charset (bs "BIG5") then
                   mmod (fun s => st_big5 s true);; mret charset
                 else mret charset);;
    d <- mget p_dict;;
    do_set_charsets charset' (get_charset d).

  (** the comment loop, po_parser.cpp:355-365 *)
  Fixpoint comments (fuel : nat) (fuzzy : bool) : P bool :=
    match fuel with
    | O => mfail OutOfFuel
    | S f =>
        h <- prefix [c_hash];;
        if h then
          cur <- mget p_cur;;
          let fuzzy' := match cur with
                        | _ :: c1 :: rest => if byte_eqb c1 c_comma && contains (bs "fuzzy") rest
                                             then true else fuzzy
                        | _ => fuzzy
                        end in
          next_line;; comments f fuzzy'
        else mret fuzzy
    end.

  (** msgstr_num.resize(number+1) if needed, then msgstr_num[number] = v
      (po_parser.cpp:402-405) *)
  Fixpoint vec_put (v : list bytes) (n : nat) (x : bytes) : list bytes :=
    match n, v with
    | O, [] => [x]
    | O, _ :: v' => x :: v'
    | S n', [] => [] :: vec_put [] n' x
    | S n', y :: v' => y :: vec_put v' n' x
    end.

  (** is the line of the form "msgstr[N]...": po_parser.cpp:392-394 *)
  Definition is_msgstr_n : P bool :=
    cur <- mget p_cur;;
    if starts_with (bs "msgstr[") cur && (8 <? length cur) then
      d <- ctype isdigit (nth 7 cur c_nul);;
      mret (d && byte_eqb (nth 8 cur c_nul) c_rbr)
    else mret false.

  (** the msgstr[N] loop, po_parser.cpp:386-411 *)
  Fixpoint msgstr_loop (fuel : nat) (num : list bytes) (nonempty : bool) : P (list bytes * bool) :=
    match fuel with
    | O => mfail OutOfFuel
    | S f =>
        e <- is_empty_line;;
        if e then
          if is_nil num then error (bs "expected 'msgstr[N] (0 <= N <= 9)'")
          else mret (num, nonempty)
        else
          m <- is_msgstr_n;;
          if m then
            cur <- mget p_cur;;
            let number := N.to_nat (code (nth 7 cur c_nul) - 48) in
            msgstr <- get_string 9;;
            v <- do_convert msgstr;;
            msgstr_loop f (vec_put num number v) (nonempty || negb (is_nil msgstr))
          else error (bs "expected 'msgstr[N]'")
    end.

  (** the plural branch, po_parser.cpp:380-448 *)
  Definition plural_entry (fuzzy : bool) (ctxt : option bytes) (msgid : bytes) : P unit :=
    msgid_plural <- get_string 12;;
    r <- msgstr_loop (cf_fuel cf) [] false;;
    e <- is_empty_line;;
    if negb e then error (bs "expected 'msgstr[N]' or empty line")
    else if snd r && (use_fuzzy || negb fuzzy) then
      d <- mget p_dict;;
      (if negb (pf_valid (get_plural_forms d))
       then warning (bs "msgstr[N] seen, but no Plural-Forms given")
       else if negb (Z.of_nat (length (fst r)) =? get_nplural (get_plural_forms d))%Z
            then warning (bs "msgstr[N] count doesn't match Plural-Forms.nplural")
            else mret tt);;
      dict_add (AddPlural ctxt msgid msgid_plural (fst r))
    else mret tt.

  (** the singular branch, po_parser.cpp:449-475 *)
  Definition singular_entry (fuzzy : bool) (ctxt : option bytes) (msgid : bytes) : P unit :=
    msgstr <- get_string 6;;
    if is_nil msgid then parse_header msgstr
    else if negb (is_nil msgstr) && (use_fuzzy || negb fuzzy) then
      v <- do_convert msgstr;;
      dict_add (AddSingular ctxt msgid v)
    else mret tt.

  (** the keywords of one entry, po_parser.cpp:369-479 *)
  Definition entry (fuzzy : bool) : P unit :=
    hc <- prefix (bs "msgctxt");;
    ctxt <- (if hc then c <- get_string 7;; mret (Some c) else mret None);;
    hi_ <- prefix (bs "msgid");;
    msgid <- (if hi_ then get_string 5 else error (bs "expected 'msgid'"));;
    hp <- prefix (bs "msgid_plural");;
    if hp then plural_entry fuzzy ctxt msgid
    else
      hs <- prefix (bs "msgstr");;
      if hs then singular_entry fuzzy ctxt msgid
      else error (bs "expected 'msgstr' or 'msgid_plural'").

  (** the body of the try block, po_parser.cpp:350-485 *)
  Definition block : P unit :=
    fuzzy <- comments (cf_fuel cf) false;;
    e <- is_empty_line;;
    (if e then mret tt else entry fuzzy);;
    e' <- is_empty_line;;
    (if e' then mret tt else error (bs "expected empty line"));;
    next_line.

  (** try { ... } catch(POParserError&) {}, po_parser.cpp:348-489 *)
  Definition try_block : P unit :=
    fun s => match block s with
             | (Exn ExPo, s') => (Ret tt, s')
             | r => r
             end.

  (** while(!eof), po_parser.cpp:346-490 *)
  Fixpoint parse_loop (fuel : nat) : P unit :=
    match fuel with
    | O => mfail OutOfFuel
    | S f =>
        eof <- mget p_eof;;
        if eof then mret tt else try_block;; parse_loop f
    end.

  Definition bom : bytes := [chr 239; chr 187; chr 191].

  (** POParser::parse(), po_parser.cpp:330-491 *)
  Definition parse_member : P unit :=
    next_line;;
    mmod (fun s => if starts_with bom (p_cur s) then st_cur s (skipn 3 (p_cur s)) else s);;
    parse_loop (cf_fuel cf).

End Parser.

(** What a client of POParser::parse observes. *)
Record parse_result := {
  pr_outcome : outcome unit;
  pr_dict : dictionary;
  pr_trace : list event;
  pr_calls : list dict_call;   (* ghost *)
  pr_lines : Z }.              (* final line_number; ghost *)

Definition finished {A} (o : outcome A) : bool :=
  match o with Ret _ | Exn _ => true | _ => false end.

(** static POParser::parse(filename, in, dict), po_parser.cpp:40-45: the parser is
    constructed with the default use_fuzzy = true (po_parser.hpp:48), and its
    destructor runs ~IConv on normal and exceptional exit. *)
Definition po_parse (cf : config) (filename : bytes) (i : istream) (d : dictionary) : parse_result :=
  let (o, s) := parse_member cf filename true (init_state cf i d) in
  {| pr_outcome := o; pr_dict := p_dict s;
     pr_trace := p_tr s ++ (if finished o then iconv_destroy (p_conv s) else []);
     pr_calls := p_calls s; pr_lines := p_line s |}.
