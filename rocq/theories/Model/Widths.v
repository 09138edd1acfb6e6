(** POParser with the widths its variables have: line_number is an int (po_parser.hpp:43), and
    the length of a line is cast to unsigned int before positions are compared with it
    (po_parser.cpp:98, 168, 182). PoParser.v has neither; here are again those functions of it
    (with the prefix w_) that get at the line number or at the casts, directly or not. *)
From Verif.Model Require Import Base Log PluralForms Dictionary IConv Stream PoParser.
Local Open Scope list_scope.

(** int and unsigned int of 32 bits *)
Definition INT_MAX : Z := 2147483647%Z.
(** static_cast<unsigned int>(n) *)
Definition as_unsigned (n : nat) : nat := Z.to_nat (Z.of_nat n mod 4294967296).

Section Widths.
  Variable cf : config.
  Variable filename : bytes.
  Variable use_fuzzy : bool.
  Local Notation I := (cf_iconv cf).
  Local Notation P := (M (pst I)).
  Local Open Scope mon_scope.

  (** POParser::next_line, po_parser.cpp:87-93: line_number += 1 beyond INT_MAX is undefined *)
  Definition w_next_line : P unit :=
    n <- mget p_line;;
    if (INT_MAX <=? n)%Z then mfail (Ub UbRange) else next_line cf.

  (** the recovery loop of error(), po_parser.cpp:80-82; every iteration consumes
      input or sets eof, so the fuel below always suffices (proved). *)
  Fixpoint w_recover (fuel : nat) : P unit :=
    match fuel with
    | O => mfail OutOfFuel
    | S f =>
        w_next_line;;
        eof <- mget p_eof;;
        if eof then mret tt
        else e <- is_empty_line cf;; if e then mret tt else w_recover f
    end.

  (** POParser::error, po_parser.cpp:74-85 *)
  Definition w_error {A} (msg : bytes) : P A :=
    s <- mget (fun s => s);;
    emit cf [EvLog (log_error (filename ++ bs ":" ++ dec_Z (p_line s) ++ bs ": error: " ++ msg
                            ++ bs ": " ++ p_cur s))];;
    w_recover (S (S (length (is_rest (p_in s)))));;
    mfail (Exn ExPo).

  (** the scanning loop of get_string_line, po_parser.cpp:104-152. Each iteration
      advances i, so [S (length current_line)] iterations always suffice (proved).
      Returns the index of the closing quote and the text appended to [out]. *)
  Fixpoint w_scan_string (fuel : nat) (i : nat) (out : bytes) : P (nat * bytes) :=
    match fuel with
    | O => mfail OutOfFuel
    | S f =>
        c <- cur_at cf i;;
        if byte_eqb c c_dq then mret (i, out)
        else
          size <- mget (fun s => length (p_cur s));;
          big5 <- mget p_big5;;
          if big5 && big5_lead c then
            if size <=? i + 1 then w_error (bs "invalid big5 encoding")
            else c1 <- cur_at cf (i + 1);; w_scan_string f (i + 2) (out ++ [c; c1])
          else if size <=? i then w_error (bs "unexpected end of string")
          else if byte_eqb c c_bsl then
            if size <=? i + 1 then w_error (bs "unexpected end of string in handling '\'")
            else
              c1 <- cur_at cf (i + 1);;
              match unescape c1 with
              | Some e => w_scan_string f (i + 2) (out ++ [e])
              | None =>
                  warning cf filename (bs "unhandled escape '\" ++ [c1] ++ bs "'");;
                  w_scan_string f (i + 2) (out ++ [c; c1])
              end
          else w_scan_string f (i + 1) (out ++ [c])
    end.

  (** POParser::get_string_line, po_parser.cpp:95-161, the cast at 98 *)
  Definition w_get_string_line (out : bytes) (skip : nat) : P bytes :=
    size <- mget (fun s => length (p_cur s));;
    if as_unsigned size <=? skip + 1 then w_error (bs "unexpected end of line")
    else
      c <- cur_at cf skip;;
      if negb (byte_eqb c c_dq) then w_error (bs "expected start of string '" ++ [c_dq] ++ bs "'")
      else
        r <- w_scan_string (S size) (skip + 1) out;;
        cur <- mget p_cur;;
        check_garbage cf filename (skipn (S (fst r)) cur);;
        mret (snd r).

  (** the "keyword and string not separated by a single space" loop,
      po_parser.cpp:180-199, the cast at 182 *)
  Fixpoint w_skip_to_string (fuel : nat) (out : bytes) (skip : nat) : P bytes :=
    match fuel with
    | O => mfail OutOfFuel
    | S f =>
        size <- mget (fun s => length (p_cur s));;
        if as_unsigned size <=? skip then w_error (bs "unexpected end of line")
        else
          c <- cur_at cf skip;;
          if byte_eqb c c_dq then w_get_string_line out skip
          else
            b <- ctype cf isspace c;;
            if negb b then w_error (bs "string must start with '" ++ [c_dq] ++ bs "'")
            else w_skip_to_string f out (skip + 1)
    end.

  (** continuation lines, po_parser.cpp:202-225 ([goto next]) *)
  Fixpoint w_continuation (fuel : nat) (out : bytes) : P bytes :=
    match fuel with
    | O => mfail OutOfFuel
    | S f =>
        w_next_line;;
        cur <- mget p_cur;;
        q <- find_quote cf 0 cur;;
        match q with
        | Some i =>
            (if (i =? 1) && cf_pedantic cf
             then warning cf filename (bs "leading whitespace before string") else mret tt);;
            out' <- w_get_string_line out i;;
            w_continuation f out'
        | None => mret out
        end
    end.

  (** POParser::get_string, po_parser.cpp:163-226, the cast at 168 *)
  Definition w_get_string (skip : nat) : P bytes :=
    size <- mget (fun s => length (p_cur s));;
    if as_unsigned size <=? skip + 1 then w_error (bs "unexpected end of line")
    else
      c0 <- cur_at cf skip;;
      c1 <- (if byte_eqb c0 c_sp then cur_at cf (skip + 1) else mret c_nul);;
      out <- (if byte_eqb c0 c_sp && byte_eqb c1 c_dq then w_get_string_line [] (skip + 1)
              else
                (if cf_pedantic cf
                 then warning cf filename (bs "keyword and string must be seperated by a single space")
                 else mret tt);;
                w_skip_to_string (S size) [] skip);;
      w_continuation (cf_fuel cf) out.

  (** the comment loop, po_parser.cpp:355-365 *)
  Fixpoint w_comments (fuel : nat) (fuzzy : bool) : P bool :=
    match fuel with
    | O => mfail OutOfFuel
    | S f =>
        h <- prefix cf [c_hash];;
        if h then
          cur <- mget p_cur;;
          let fuzzy' := match cur with
                        | _ :: c1 :: rest => if byte_eqb c1 c_comma && contains (bs "fuzzy") rest
                                             then true else fuzzy
                        | _ => fuzzy
                        end in
          w_next_line;; w_comments f fuzzy'
        else mret fuzzy
    end.

  (** the msgstr[N] loop, po_parser.cpp:386-411 *)
  Fixpoint w_msgstr_loop (fuel : nat) (num : list bytes) (nonempty : bool) : P (list bytes * bool) :=
    match fuel with
    | O => mfail OutOfFuel
    | S f =>
        e <- is_empty_line cf;;
        if e then
          if is_nil num then w_error (bs "expected 'msgstr[N] (0 <= N <= 9)'")
          else mret (num, nonempty)
        else
          m <- is_msgstr_n cf;;
          if m then
            cur <- mget p_cur;;
            let number := N.to_nat (code (nth 7 cur c_nul) - 48) in
            msgstr <- w_get_string 9;;
            v <- do_convert cf msgstr;;
            w_msgstr_loop f (vec_put num number v) (nonempty || negb (is_nil msgstr))
          else w_error (bs "expected 'msgstr[N]'")
    end.

  (** the plural branch, po_parser.cpp:380-448 *)
  Definition w_plural_entry (fuzzy : bool) (ctxt : option bytes) (msgid : bytes) : P unit :=
    msgid_plural <- w_get_string 12;;
    r <- w_msgstr_loop (cf_fuel cf) [] false;;
    e <- is_empty_line cf;;
    if negb e then w_error (bs "expected 'msgstr[N]' or empty line")
    else if snd r && (use_fuzzy || negb fuzzy) then
      d <- mget p_dict;;
      (if negb (pf_valid (get_plural_forms d))
       then warning cf filename (bs "msgstr[N] seen, but no Plural-Forms given")
       else if negb (Z.of_nat (length (fst r)) =? get_nplural (get_plural_forms d))%Z
            then warning cf filename (bs "msgstr[N] count doesn't match Plural-Forms.nplural")
            else mret tt);;
      dict_add cf (AddPlural ctxt msgid msgid_plural (fst r))
    else mret tt.

  (** the singular branch, po_parser.cpp:449-475 *)
  Definition w_singular_entry (fuzzy : bool) (ctxt : option bytes) (msgid : bytes) : P unit :=
    msgstr <- w_get_string 6;;
    if is_nil msgid then parse_header cf filename msgstr
    else if negb (is_nil msgstr) && (use_fuzzy || negb fuzzy) then
      v <- do_convert cf msgstr;;
      dict_add cf (AddSingular ctxt msgid v)
    else mret tt.

  (** the keywords of one entry, po_parser.cpp:369-479 *)
  Definition w_entry (fuzzy : bool) : P unit :=
    hc <- prefix cf (bs "msgctxt");;
    ctxt <- (if hc then c <- w_get_string 7;; mret (Some c) else mret None);;
    hi_ <- prefix cf (bs "msgid");;
    msgid <- (if hi_ then w_get_string 5 else w_error (bs "expected 'msgid'"));;
    hp <- prefix cf (bs "msgid_plural");;
    if hp then w_plural_entry fuzzy ctxt msgid
    else
      hs <- prefix cf (bs "msgstr");;
      if hs then w_singular_entry fuzzy ctxt msgid
      else w_error (bs "expected 'msgstr' or 'msgid_plural'").

  (** the body of the try block, po_parser.cpp:350-485 *)
  Definition w_block : P unit :=
    fuzzy <- w_comments (cf_fuel cf) false;;
    e <- is_empty_line cf;;
    (if e then mret tt else w_entry fuzzy);;
    e' <- is_empty_line cf;;
    (if e' then mret tt else w_error (bs "expected empty line"));;
    w_next_line.

  (** try { ... } catch(POParserError&) {}, po_parser.cpp:348-489 *)
  Definition w_try_block : P unit :=
    fun s => match w_block s with
             | (Exn ExPo, s') => (Ret tt, s')
             | r => r
             end.

  (** while(!eof), po_parser.cpp:346-490 *)
  Fixpoint w_parse_loop (fuel : nat) : P unit :=
    match fuel with
    | O => mfail OutOfFuel
    | S f =>
        eof <- mget p_eof;;
        if eof then mret tt else w_try_block;; w_parse_loop f
    end.

  (** POParser::parse(), po_parser.cpp:330-491 *)
  Definition w_parse_member : P unit :=
    w_next_line;;
    mmod (fun s => if starts_with bom (p_cur s) then st_cur s (skipn 3 (p_cur s)) else s);;
    w_parse_loop (cf_fuel cf).
End Widths.

(** static POParser::parse, po_parser.cpp:40-45 *)
Definition w_po_parse (cf : config) (filename : bytes) (i : istream) (d : dictionary) : parse_result :=
  let (o, s) := w_parse_member cf filename true (init_state cf i d) in
  {| pr_outcome := o; pr_dict := p_dict s;
     pr_trace := p_tr s ++ (if finished o then iconv_destroy (p_conv s) else []);
     pr_calls := p_calls s; pr_lines := p_line s |}.
