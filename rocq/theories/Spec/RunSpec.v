(** What parsing an arbitrary complete file does, in order, whatever the converter does:
    conversions, additions, log lines, and where it stops if a conversion fails. *)
From Verif.Model Require Import Base Log PluralForms Dictionary IConv Stream PoParser.
From Verif.Spec Require Import DictSpec ParserSpec PoSpec SoundSpec DamageSpec FullSpec.
From Verif.Spec Require Import DiagSpec.
Local Open Scope list_scope.
Local Open Scope mon_scope.

(** The part of the world a parse acts upon. *)
Record world (I : iconv_impl) := {
  w_conv : iconv I;              (* the converter *)
  w_dict : dictionary;
  w_calls : list dict_call;      (* calls on the dictionary so far *)
  w_log : list event }.          (* log lines and conversions so far *)
Arguments w_conv {I} w. Arguments w_dict {I} w. Arguments w_calls {I} w. Arguments w_log {I} w.
Definition start (I : iconv_impl) (d : dictionary) : world I :=
  {| w_conv := iconv_new I; w_dict := d; w_calls := []; w_log := [] |}.

(** ** The text of a msgstr[N], from its lines *)
Fixpoint scan_value (big5 : bool) (t : bytes) : bytes :=
  match t with
  | [] => []
  | c :: t1 =>
      if byte_eqb c c_dq then []
      else if big5 && ((129 <=? code c) && (code c <=? 254))%N then
        match t1 with [] => [] | c1 :: t2 => c :: c1 :: scan_value big5 t2 end
      else if byte_eqb c c_bsl then
        match t1 with
        | [] => []
        | c1 :: t2 => match meaning_of c1 escapes with Some v => [v] | None => [c; c1] end ++ scan_value big5 t2
        end
      else c :: scan_value big5 t1
  end.
Definition quoted_value (big5 : bool) (t : bytes) : bytes :=
  match after_space t with c :: r => if byte_eqb c c_dq then scan_value big5 r else [] | [] => [] end.
(** the string of the last keyword in [ls], a msgstr[N] *)
Fixpoint string_value (big5 : bool) (v : bytes) (ls : list bytes) : bytes :=
  match ls with
  | [] => v
  | l :: ls' => string_value big5 (if has_keyword l then quoted_value big5 (skipn (length (bs "msgstr[N]")) l) else v ++ quoted_value big5 l) ls'
  end.

Section Run.
  Context {I : iconv_impl}.
  Variable fn : bytes.
  Variables pedantic ndebug : bool.
  Local Notation A := (M (world I)).

  (** ** Single actions *)
  Definition note (evs : list event) : A unit :=
    mmod (fun w => {| w_conv := w_conv w; w_dict := w_dict w; w_calls := w_calls w; w_log := w_log w ++ evs |}).
  Definition call (c : dict_call) : A unit :=
    mmod (fun w => {| w_conv := w_conv w; w_dict := apply_call (w_dict w) c; w_calls := w_calls w ++ [c]; w_log := w_log w |}).
  (** convert a string; open a converter *)
  Definition converting (text : bytes) : A bytes :=
    fun w => let '(o, c, ev) := convert ndebug (w_conv w) text in
             (o, {| w_conv := c; w_dict := w_dict w; w_calls := w_calls w; w_log := w_log w ++ ev |}).
  Definition opening (from : bytes) : A unit :=
    fun w => let '(o, c, ev) := set_charsets false (w_conv w) from (d_charset (w_dict w)) in
             (o, {| w_conv := c; w_dict := w_dict w; w_calls := w_calls w; w_log := w_log w ++ ev |}).
  Definition adding (op : add_op) : A unit :=
    d <- mget w_dict;; note (add_log_of d op);; call (CallAdd op).
  Fixpoint calling (cs : list dict_call) : A unit :=
    match cs with [] => mret tt | c :: cs' => call c;; calling cs' end.

  (** ** Entries; [n]: number of the first line, [next]: the line after the entry *)
  Fixpoint rows_do (n : Z) (rows : list (nat * literal)) : A (list (nat * bytes)) :=
    match rows with
    | [] => mret []
    | (i, l) :: rows' =>
        note (lit_log fn pedantic n (bs "msgstr[" ++ [digit_of i; c_rbr]) l);;
        v <- converting (lit_value l);;
        vs <- rows_do (n + len (row_lines (i, l))) rows';;
        mret ((i, v) :: vs)
    end.
  Definition header_do (n : Z) (next h : bytes) : A unit :=
    d <- mget w_dict;;
    note (List.map (reported fn n next) (hdr_lines_notes d (hdr_lines h) ++ charset_notes h));;
    calling (List.map CallPlural (hdr_plurals h));;
    opening (hdr_charset h).
  Definition body_do (n : Z) (next : bytes) (ctxt : option bytes) (id : bytes) (b : po_body) : A unit :=
    let n' := (n + len (body_lines b))%Z in
    match b with
    | PoStr m =>
        note (lit_log fn pedantic n (bs "msgstr") m);;
        if is_nil id then header_do n' next (lit_value m)
        else if is_nil (lit_value m) then mret tt
        else v <- converting (lit_value m);; adding (AddSingular ctxt id v)
    | PoPlural p rows =>
        note (lit_log fn pedantic n (bs "msgid_plural") p);;
        vs <- rows_do (n + len (lit_lines (bs "msgid_plural") p)) rows;;
        if forallb (fun r => is_nil (lit_value (snd r))) rows then mret tt
        else
          d <- mget w_dict;;
          note (List.map (reported fn n' next) (count_notes d rows));;
          adding (AddPlural ctxt id (lit_value p) (forms vs))
    end.
  Definition entry_do (n : Z) (next : bytes) (e : po_entry) : A unit :=
    let n1 := (n + len (ctxt_lines (en_ctxt e)))%Z in
    note (ctxt_log fn pedantic n (en_ctxt e));;
    note (lit_log fn pedantic n1 (bs "msgid") (en_id e));;
    body_do (n1 + len (lit_lines (bs "msgid") (en_id e))) next (opt_value (en_ctxt e)) (lit_value (en_id e)) (en_body e).
  Definition block_do (n : Z) (next : bytes) (b : po_block) : A unit :=
    match bl_entry b with
    | Some e => entry_do (n + len (bl_comments b)) next e
    | None => mret tt
    end.

  (** ** The lines before a mistake; [before]: those before [ls] in the block, [next]: the one
      after. A msgstr[N] is converted when the line after it shows that it is complete. *)
  Fixpoint lines_do (big5 : bool) (n : Z) (before : list bytes) (next : bytes) (ls : list bytes) : A unit :=
    match ls with
    | [] => mret tt
    | l :: ls' =>
        note (List.map (reported fn n l) (line_notes pedantic big5 before l));;
        (match stage_after (before ++ [l]) with
         | AfterForm => if has_keyword (hd next ls')
                        then converting (string_value big5 [] (before ++ [l]));; mret tt
                        else mret tt
         | _ => mret tt
         end);;
        lines_do big5 (n + 1) (before ++ [l]) next ls'
    end.

  (** ** Segments; [m]: the report of the mistake in it, if any *)
  Definition seg_do (big5 : bool) (n : Z) (sg : segment) (m : option bytes) : A unit :=
    (match sg with
     | Whole b sep => block_do n sep b
     | Excess b x _ => block_do n x b
     | Broken pre x _ =>
         lines_do big5 n [] x pre;;
         note (List.map (reported fn (n + len pre) x) (line_notes pedantic big5 pre x))
     end);;
    match sg, m with
    | Excess b x _, Some msg => note [mistake fn (n + len (block_lines b)) msg x]
    | Broken pre x _, Some msg => note [mistake fn (n + len pre) msg x]
    | _, _ => mret tt
    end.
  Fixpoint segs_do (big5 : bool) (n : Z) (sgs : list segment) (ms : list (option bytes)) : A unit :=
    match sgs, ms with
    | sg :: sgs', m :: ms' =>
        seg_do big5 n sg m;;
        segs_do (big5_end big5 (seg_entries sg)) (n + len (seg_lines sg)) sgs' ms'
    | _, _ => mret tt
    end.
End Run.

(** what is reported about a segment *)
Definition diagnosed (big5 : bool) (sg : segment) (m : option bytes) : Prop :=
  match sg with
  | Whole _ _ => m = None
  | Excess _ _ _ => m = Some (bs "expected empty line")
  | Broken pre x _ => exists msg, m = Some msg /\ complaint big5 pre x msg
  end.
Fixpoint segs_diagnosed (big5 : bool) (sgs : list segment) (ms : list (option bytes)) : Prop :=
  match sgs, ms with
  | [], [] => True
  | sg :: sgs', m :: ms' => diagnosed big5 sg m /\ segs_diagnosed (big5_end big5 (seg_entries sg)) sgs' ms'
  | _, _ => False
  end.
(** a parse does [x]: it ends as [x] does, and leaves the dictionary, the calls and the log
    of [x]; at the end the converter is closed *)
Definition parse_does {I : iconv_impl} (r : parse_result) (x : outcome unit * world I) : Prop :=
  pr_outcome r = fst x /\ pr_dict r = w_dict (snd x) /\ pr_calls r = w_calls (snd x) /\
  pr_trace r = w_log (snd x) ++ (if finished (fst x) then iconv_destroy (w_conv (snd x)) else []).
