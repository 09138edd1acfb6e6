(** Fuel-free vocabulary for statements about POParser::parse.

    The model bounds every loop by [cf_fuel]; a bound that is exceeded is reported
    as [OutOfFuel]. The real parser has no bound, so properties are stated with
    [parses_to] (for all large enough bounds the parse finishes with this result)
    and [diverges] (no bound suffices). *)
From Verif.Model Require Import Base Log PluralForms Dictionary IConv Stream PoParser.
Local Open Scope list_scope.

Definition with_fuel (cf : config) (n : nat) : config :=
  {| cf_pedantic := cf_pedantic cf; cf_strict := cf_strict cf; cf_ndebug := cf_ndebug cf;
     cf_fuel := n; cf_iconv := cf_iconv cf |}.

(** POParser::parse(fn, i, d) finishes, with result r *)
Definition parses_to (cf : config) (fn : bytes) (i : istream) (d : dictionary) (r : parse_result) : Prop :=
  pr_outcome r <> OutOfFuel /\
  exists N, forall n, N <= n -> po_parse (with_fuel cf n) fn i d = r.

(** POParser::parse(fn, i, d) never finishes *)
Definition diverges (cf : config) (fn : bytes) (i : istream) (d : dictionary) : Prop :=
  forall n, pr_outcome (po_parse (with_fuel cf n) fn i d) = OutOfFuel.

(** the dictionary additions among a list of calls *)
Fixpoint adds (l : list dict_call) : list add_op :=
  match l with
  | [] => []
  | CallAdd op :: l' => op :: adds l'
  | CallPlural _ :: l' => adds l'
  end.

(** the Plural-Forms lines among a list of calls *)
Fixpoint plurals (l : list dict_call) : list plural_forms :=
  match l with
  | [] => []
  | CallAdd _ :: l' => plurals l'
  | CallPlural p :: l' => p :: plurals l'
  end.

(** The parser at the start of a block: a blank line has just been read, the rest of
    the input is [b], and [conv], [big5] are the charset state left by earlier
    headers. *)
Definition block_start (cf : config) (conv : iconv (cf_iconv cf)) (big5 : bool) (b : bytes) (d : dictionary)
  : pst (cf_iconv cf) :=
  {| p_in := stream_of b; p_dict := d; p_eof := false; p_big5 := big5; p_line := 0%Z; p_cur := [];
     p_conv := conv; p_tr := []; p_calls := [] |}.

(** Parsing [b] from there finishes with the given outcome and dictionary calls. *)
Definition resumes_to (cf : config) (fn : bytes) (conv : iconv (cf_iconv cf)) (big5 : bool) (b : bytes)
  (d : dictionary) (o : outcome unit) (calls : list dict_call) : Prop :=
  o <> OutOfFuel /\
  exists N, forall n, N <= n ->
    let r := parse_loop (with_fuel cf n) fn true n (block_start cf conv big5 b d) in
    fst r = o /\ p_calls (snd r) = calls.

(** The part of a byte string after its last newline. *)
Fixpoint last_line_from (acc b : bytes) : bytes :=
  match b with
  | [] => acc
  | c :: b' => if byte_eqb c c_lf then last_line_from [] b' else last_line_from (acc ++ [c]) b'
  end.
Definition last_line (b : bytes) : bytes := last_line_from [] b.

(** first character that is not white space is a double quote *)
Fixpoint quote_first (l : bytes) : bool :=
  match l with
  | [] => false
  | c :: l' => byte_eqb c c_dq || (isspace c && quote_first l')
  end.

(** an unterminated last line on which the parser may get stuck *)
Definition hangs_on (l : bytes) : bool :=
  starts_with [c_hash] l || starts_with (bs "msgstr[") l || quote_first l.

Definition drop_bom (b : bytes) : bytes := if starts_with bom b then skipn 3 b else b.

(** number of lines of a file: newlines, plus one for an unterminated last line *)
Fixpoint newlines (b : bytes) : nat :=
  match b with [] => 0 | c :: b' => (if byte_eqb c c_lf then 1 else 0) + newlines b' end.
Definition line_count (b : bytes) : nat := newlines b + (if is_nil (last_line b) then 0 else 1).

(** two files with the same number of lines, corresponding complete lines related by
    [C] and unterminated last lines by [T] *)
Inductive linewise (C T : bytes -> bytes -> Prop) : bytes -> bytes -> Prop :=
| lw_end l1 l2 : ~ In c_lf l1 -> ~ In c_lf l2 -> T l1 l2 -> linewise C T l1 l2
| lw_line l1 l2 b1 b2 : ~ In c_lf l1 -> ~ In c_lf l2 -> C l1 l2 -> linewise C T b1 b2 ->
    linewise C T (l1 ++ c_lf :: b1) (l2 ++ c_lf :: b2).

(** DOS line ends: a carriage return before every newline *)
Fixpoint crlf (b : bytes) : bytes :=
  match b with
  | [] => []
  | c :: b' => if byte_eqb c c_lf then c_cr :: c_lf :: crlf b' else c :: crlf b'
  end.

(** a flag comment "#, fuzzy, c-format" *)
Definition flag_line (l : bytes) : bool := starts_with [c_hash; c_comma] l.
Definition same_or_flags (a b : bytes) : Prop := a = b \/ (flag_line a = true /\ flag_line b = true).
(** files that differ at most in what their flag comments say *)
Definition flags_differ : bytes -> bytes -> Prop := linewise same_or_flags same_or_flags.

(** newline-terminated or empty *)
Definition complete (b : bytes) : Prop := b = [] \/ exists b', b = b' ++ [c_lf].
(** two newlines: after complete lines, two blank lines *)
Definition nn : bytes := [c_lf; c_lf].

(** a charset converter is opened *)
Definition is_open (e : event) : bool := match e with EvOpen _ => true | _ => false end.
Definition opens (tr : list event) : bool := existsb is_open tr.

(** the same configuration with other pedantic mode *)
Definition set_pedantic (cf : config) (b : bool) : config :=
  {| cf_pedantic := b; cf_strict := cf_strict cf; cf_ndebug := cf_ndebug cf; cf_fuel := cf_fuel cf;
     cf_iconv := cf_iconv cf |}.

(** the same configuration on a platform whose ctype functions do (or do not) accept
    negative chars *)
Definition set_strict (cf : config) (b : bool) : config :=
  {| cf_pedantic := cf_pedantic cf; cf_strict := b; cf_ndebug := cf_ndebug cf; cf_fuel := cf_fuel cf; cf_iconv := cf_iconv cf |}.

(** what a parse may ask of the dictionary: translations for non-empty msgids, plural
    entries with one to ten forms, usable plural rules *)
Definition proper_call (c : dict_call) : Prop :=
  match c with
  | CallAdd (AddSingular _ msgid _) => msgid <> []
  | CallAdd (AddPlural _ _ _ forms) => 1 <= length forms <= 10
  | CallPlural p => pf_valid p = true
  end.
