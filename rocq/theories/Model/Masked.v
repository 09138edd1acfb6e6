(** POParser::parse on a stream with an exception mask (std::ios::exceptions): std::getline then
    throws, and the parser, which catches POParserError only (po_parser.cpp:487), lets the exception
    pass. PoParser.v is the parser on streams without a mask; here are again those functions of it
    (with the prefix x_) that read lines, directly or not.
    Simplification: all such exceptions are one std::runtime_error (std::ios_base::failure is one). *)
From Verif.Model Require Import Base Log PluralForms Dictionary IConv Stream PoParser.
Local Open Scope list_scope.

(** exceptions(eofbit), exceptions(failbit), exceptions(badbit) *)
Record mask := { mk_eof : bool; mk_fail : bool; mk_bad : bool }.
Definition io_failure : bytes := bs "basic_ios::clear: iostream error".
(** did the getline that made the stream [i] into [i'] (with success or not) set a bit of the mask?
    failbit: the stream was not good, or nothing could be extracted; badbit: reading failed. *)
Definition thrown (mk : mask) (i i' : istream) (ok : bool) : bool :=
  (mk_eof mk && is_eof i')
  || (mk_fail mk && (negb (is_good i) || is_nil (is_rest i)))
  || (mk_bad mk && (is_good i && is_break i && negb ok)).

Section Masked.
  Variable mk : mask.
  Variable cf : config.
  Variable filename : bytes.
  Variable use_fuzzy : bool.
  Local Notation I := (cf_iconv cf).
  Local Notation P := (M (pst I)).
  Local Open Scope mon_scope.

  (** POParser::next_line, po_parser.cpp:87-93; an exception leaves eof as it is *)
  Definition x_next_line : P unit :=
    fun s => match getline (p_in s) (p_cur s) with
             | (i, cur, ok) =>
                 if thrown mk (p_in s) i ok
                 then (Exn (ExRuntime io_failure), st_line s i cur (p_eof s) (p_line s + 1))
                 else (Ret tt, st_line s i cur (if ok then p_eof s else true) (p_line s + 1))
             end.

  (** the recovery loop of error(), po_parser.cpp:80-82; every iteration consumes
      input or sets eof, so the fuel below always suffices (proved). *)
  Fixpoint x_recover (fuel : nat) : P unit :=
    match fuel with
    | O => mfail OutOfFuel
    | S f =>
        x_next_line;;
        eof <- mget p_eof;;
        if eof then mret tt
        else e <- is_empty_line cf;; if e then mret tt else x_recover f
    end.

  (** POParser::error, po_parser.cpp:74-85 *)
  Definition x_error {A} (msg : bytes) : P A :=
    s <- mget (fun s => s);;
    emit cf [EvLog (log_error (filename ++ bs ":" ++ dec_Z (p_line s) ++ bs ": error: " ++ msg
                            ++ bs ": " ++ p_cur s))];;
    x_recover (S (S (length (is_rest (p_in s)))));;
    mfail (Exn ExPo).

  (** the scanning loop of get_string_line, po_parser.cpp:104-152. Each iteration
      advances i, so [S (length current_line)] iterations always suffice (proved).
      Returns the index of the closing quote and the text appended to [out]. *)
  Fixpoint x_scan_string (fuel : nat) (i : nat) (out : bytes) : P (nat * bytes) :=
    match fuel with
    | O => mfail OutOfFuel
    | S f =>
        c <- cur_at cf i;;
        if byte_eqb c c_dq then mret (i, out)
        else
          size <- mget (fun s => length (p_cur s));;
          big5 <- mget p_big5;;
          if big5 && big5_lead c then
            if size <=? i + 1 then x_error (bs "invalid big5 encoding")
            else c1 <- cur_at cf (i + 1);; x_scan_string f (i + 2) (out ++ [c; c1])
          else if size <=? i then x_error (bs "unexpected end of string")
          else if byte_eqb c c_bsl then
            if size <=? i + 1 then x_error (bs "unexpected end of string in handling '\'")
            else
              c1 <- cur_at cf (i + 1);;
              match unescape c1 with
              | Some e => x_scan_string f (i + 2) (out ++ [e])
              | None =>
                  warning cf filename (bs "unhandled escape '\" ++ [c1] ++ bs "'");;
                  x_scan_string f (i + 2) (out ++ [c; c1])
              end
          else x_scan_string f (i + 1) (out ++ [c])
    end.

  (** POParser::get_string_line, po_parser.cpp:95-161 *)
  Definition x_get_string_line (out : bytes) (skip : nat) : P bytes :=
    size <- mget (fun s => length (p_cur s));;
    if size <=? skip + 1 then x_error (bs "unexpected end of line")
    else
      c <- cur_at cf skip;;
      if negb (byte_eqb c c_dq) then x_error (bs "expected start of string '" ++ [c_dq] ++ bs "'")
      else
        r <- x_scan_string (S size) (skip + 1) out;;
        cur <- mget p_cur;;
        check_garbage cf filename (skipn (S (fst r)) cur);;
        mret (snd r).

  (** the "keyword and string not separated by a single space" loop,
      po_parser.cpp:180-199 *)
  Fixpoint x_skip_to_string (fuel : nat) (out : bytes) (skip : nat) : P bytes :=
    match fuel with
    | O => mfail OutOfFuel
    | S f =>
        size <- mget (fun s => length (p_cur s));;
        if size <=? skip then x_error (bs "unexpected end of line")
        else
          c <- cur_at cf skip;;
          if byte_eqb c c_dq then x_get_string_line out skip
          else
            b <- ctype cf isspace c;;
            if negb b then x_error (bs "string must start with '" ++ [c_dq] ++ bs "'")
            else x_skip_to_string f out (skip + 1)
    end.

  (** continuation lines, po_parser.cpp:202-225 ([goto next]) *)
  Fixpoint x_continuation (fuel : nat) (out : bytes) : P bytes :=
    match fuel with
    | O => mfail OutOfFuel
    | S f =>
        x_next_line;;
        cur <- mget p_cur;;
        q <- find_quote cf 0 cur;;
        match q with
        | Some i =>
            (if (i =? 1) && cf_pedantic cf
             then warning cf filename (bs "leading whitespace before string") else mret tt);;
            out' <- x_get_string_line out i;;
            x_continuation f out'
        | None => mret out
        end
    end.

  (** POParser::get_string, po_parser.cpp:163-226 *)
  Definition x_get_string (skip : nat) : P bytes :=
    size <- mget (fun s => length (p_cur s));;
    if size <=? skip + 1 then x_error (bs "unexpected end of line")
    else
      c0 <- cur_at cf skip;;
      c1 <- (if byte_eqb c0 c_sp then cur_at cf (skip + 1) else mret c_nul);;
      out <- (if byte_eqb c0 c_sp && byte_eqb c1 c_dq then x_get_string_line [] (skip + 1)
              else
                (if cf_pedantic cf
                 then warning cf filename (bs "keyword and string must be seperated by a single space")
                 else mret tt);;
                x_skip_to_string (S size) [] skip);;
      x_continuation (cf_fuel cf) out.

  (** the comment loop, po_parser.cpp:355-365 *)
  Fixpoint x_comments (fuel : nat) (fuzzy : bool) : P bool :=
    match fuel with
    | O => mfail OutOfFuel
    | S f =>
        h <- prefix cf [c_hash];;
        if h then
          cur <- mget p_cur;;
          let fuzzy' := match cur with
                        | _ :: c1 :: rest => if byte_eqb c1 c_comma && contains (bs "fuzzy") rest
                                             then true else fuzzy
                        | _ => fuzzy
                        end in
          x_next_line;; x_comments f fuzzy'
        else mret fuzzy
    end.

  (** the msgstr[N] loop, po_parser.cpp:386-411 *)
  Fixpoint x_msgstr_loop (fuel : nat) (num : list bytes) (nonempty : bool) : P (list bytes * bool) :=
    match fuel with
    | O => mfail OutOfFuel
    | S f =>
        e <- is_empty_line cf;;
        if e then
          if is_nil num then x_error (bs "expected 'msgstr[N] (0 <= N <= 9)'")
          else mret (num, nonempty)
        else
          m <- is_msgstr_n cf;;
          if m then
            cur <- mget p_cur;;
            let number := N.to_nat (code (nth 7 cur c_nul) - 48) in
            msgstr <- x_get_string 9;;
            v <- do_convert cf msgstr;;
            x_msgstr_loop f (vec_put num number v) (nonempty || negb (is_nil msgstr))
          else x_error (bs "expected 'msgstr[N]'")
    end.

  (** the plural branch, po_parser.cpp:380-448 *)
  Definition x_plural_entry (fuzzy : bool) (ctxt : option bytes) (msgid : bytes) : P unit :=
    msgid_plural <- x_get_string 12;;
    r <- x_msgstr_loop (cf_fuel cf) [] false;;
    e <- is_empty_line cf;;
    if negb e then x_error (bs "expected 'msgstr[N]' or empty line")
    else if snd r && (use_fuzzy || negb fuzzy) then
      d <- mget p_dict;;
      (if negb (pf_valid (get_plural_forms d))
       then warning cf filename (bs "msgstr[N] seen, but no Plural-Forms given")
       else if negb (Z.of_nat (length (fst r)) =? get_nplural (get_plural_forms d))%Z
            then warning cf filename (bs "msgstr[N] count doesn't match Plural-Forms.nplural")
            else mret tt);;
      dict_add cf (AddPlural ctxt msgid msgid_plural (fst r))
    else mret tt.

  (** the singular branch, po_parser.cpp:449-475 *)
  Definition x_singular_entry (fuzzy : bool) (ctxt : option bytes) (msgid : bytes) : P unit :=
    msgstr <- x_get_string 6;;
    if is_nil msgid then parse_header cf filename msgstr
    else if negb (is_nil msgstr) && (use_fuzzy || negb fuzzy) then
      v <- do_convert cf msgstr;;
      dict_add cf (AddSingular ctxt msgid v)
    else mret tt.

  (** the keywords of one entry, po_parser.cpp:369-479 *)
  Definition x_entry (fuzzy : bool) : P unit :=
    hc <- prefix cf (bs "msgctxt");;
    ctxt <- (if hc then c <- x_get_string 7;; mret (Some c) else mret None);;
    hi_ <- prefix cf (bs "msgid");;
    msgid <- (if hi_ then x_get_string 5 else x_error (bs "expected 'msgid'"));;
    hp <- prefix cf (bs "msgid_plural");;
    if hp then x_plural_entry fuzzy ctxt msgid
    else
      hs <- prefix cf (bs "msgstr");;
      if hs then x_singular_entry fuzzy ctxt msgid
      else x_error (bs "expected 'msgstr' or 'msgid_plural'").

  (** the body of the try block, po_parser.cpp:350-485 *)
  Definition x_block : P unit :=
    fuzzy <- x_comments (cf_fuel cf) false;;
    e <- is_empty_line cf;;
    (if e then mret tt else x_entry fuzzy);;
    e' <- is_empty_line cf;;
    (if e' then mret tt else x_error (bs "expected empty line"));;
    x_next_line.

  (** try { ... } catch(POParserError&) {}, po_parser.cpp:348-489 *)
  Definition x_try_block : P unit :=
    fun s => match x_block s with
             | (Exn ExPo, s') => (Ret tt, s')
             | r => r
             end.

  (** while(!eof), po_parser.cpp:346-490 *)
  Fixpoint x_parse_loop (fuel : nat) : P unit :=
    match fuel with
    | O => mfail OutOfFuel
    | S f =>
        eof <- mget p_eof;;
        if eof then mret tt else x_try_block;; x_parse_loop f
    end.

  (** POParser::parse(), po_parser.cpp:330-491 *)
  Definition x_parse_member : P unit :=
    x_next_line;;
    mmod (fun s => if starts_with bom (p_cur s) then st_cur s (skipn 3 (p_cur s)) else s);;
    x_parse_loop (cf_fuel cf).
End Masked.

(** static POParser::parse, po_parser.cpp:40-45 *)
Definition x_po_parse (mk : mask) (cf : config) (filename : bytes) (i : istream) (d : dictionary) : parse_result :=
  let (o, s) := x_parse_member mk cf filename true (init_state cf i d) in
  {| pr_outcome := o; pr_dict := p_dict s;
     pr_trace := p_tr s ++ (if finished o then iconv_destroy (p_conv s) else []);
     pr_calls := p_calls s; pr_lines := p_line s |}.
