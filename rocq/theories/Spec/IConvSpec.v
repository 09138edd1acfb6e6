(** Abstract character-set converters and the discipline on descriptors. *)
From Verif.Model Require Import Base Log IConv.
Local Open Scope list_scope.

(** A stateless charset conversion: [step text] converts the first character of a
    non-empty text: how many bytes it takes and what it becomes; [None] if the text
    does not start with a valid character. *)
Definition stepper := bytes -> option (nat * bytes).

Definition stepper_ok (step : stepper) : Prop :=
  forall text n out, text <> [] -> step text = Some (n, out) -> 1 <= n <= length text /\ length out <= 4 * n.

(** iconv(3) on such a conversion: convert characters while they fit. *)
Fixpoint conv_loop (step : stepper) (fuel : nat) (text out : bytes) (cap : nat) : bytes * option errno :=
  match fuel with
  | O => (out, None)
  | S f =>
      match text with
      | [] => (out, None)
      | _ => match step text with
             | None => (out, Some EILSEQ)
             | Some (n, o) => if length o <=? cap
                              then conv_loop step f (skipn n text) (out ++ o) (cap - length o)
                              else (out, Some E2BIG)
             end
      end
  end.

(** An iconv implementation with start-up output [mark] (a byte-order mark, written
    before the first character converted after opening or resetting). *)
Definition iconv_of (mark : bytes) (step : stepper) : iconv_impl := {|
  ic_state := bool;                 (* has the mark been written? *)
  ic_open := fun _ _ => inl false;
  ic_conv := fun started text cap =>
    if is_nil text then (started, [], None)
    else if started then (true, fst (conv_loop step (length text) text [] cap), snd (conv_loop step (length text) text [] cap))
    else if length mark <=? cap
         then let r := conv_loop step (length text) text mark (cap - length mark) in (true, fst r, snd r)
         else (false, [], Some E2BIG);
  ic_reset := fun _ => false |}.

(** The conversion of the longest valid prefix, and whether that is all of it. *)
Fixpoint converted (step : stepper) (fuel : nat) (text : bytes) : bytes * bool :=
  match fuel with
  | O => ([], true)
  | S f =>
      match text with
      | [] => ([], true)
      | _ => match step text with
             | None => ([], false)
             | Some (n, o) => let (r, b) := converted step f (skipn n text) in (o ++ r, b)
             end
      end
  end.
Definition conversion (step : stepper) (text : bytes) : bytes * bool := converted step (length text) text.

(** Descriptor discipline: starting with at most one open descriptor, every use or
    close is of the open one, nothing is opened while one is open, serials are never
    reused. Returns the descriptor left open. *)
Fixpoint disciplined (open : option nat) (next : nat) (tr : list event) : option (option nat * nat) :=
  match tr with
  | [] => Some (open, next)
  | EvLog _ :: tr' => disciplined open next tr'
  | EvOpen id :: tr' =>
      match open with
      | None => if Nat.eqb id next then disciplined (Some id) (S next) tr' else None
      | Some _ => None
      end
  | EvUse id :: tr' | EvReset id :: tr' =>
      match open with
      | Some o => if Nat.eqb o id then disciplined open next tr' else None
      | None => None
      end
  | EvClose (Some id) :: tr' =>
      match open with
      | Some o => if Nat.eqb o id then disciplined None next tr' else None
      | None => None
      end
  | EvClose None :: _ => None
  end.

(** Client calls on one IConv object. A call that throws leaves the object usable. *)
Inductive iconv_call := SetCharsets (from to : bytes) | Convert (text : bytes).

Definition iconv_step {I} (strict ndebug : bool) (st : iconv I * list event) (c : iconv_call)
  : iconv I * list event :=
  match c with
  | SetCharsets f t => let '(_, c', ev) := set_charsets strict (fst st) f t in (c', snd st ++ ev)
  | Convert t => let '(_, c', ev) := convert ndebug (fst st) t in (c', snd st ++ ev)
  end.

(** The whole life of an object: construction, calls, destruction. *)
Definition iconv_life (I : iconv_impl) (strict ndebug : bool) (calls : list iconv_call) : list event :=
  let st := fold_left (iconv_step strict ndebug) calls (iconv_new I, []) in
  snd st ++ iconv_destroy (fst st).

(** opening this conversion succeeds *)
Definition openable (I : iconv_impl) (from to : bytes) : Prop :=
  exists st, ic_open I (c_str (List.map toupper to)) (c_str (List.map toupper from)) = inl st.

(** What the exception says if iconv_open(to, from) fails with errno [e]; [text] is strerror's
    text for [e]. *)
Definition cannot_convert (from to : bytes) (e : errno) (text : bytes) : bytes :=
  match e with
  | EINVAL => bs "IConv construction failed: conversion from '" ++ from ++ bs "' to '" ++ to ++ bs "' not available"
  | _ => bs "IConv: construction failed: " ++ text
  end.

(** Texts handed to one descriptor in turn: what iconv(3) writes for each. A failed conversion
    is followed by a reset. *)
Inductive in_turn (I : iconv_impl) : ic_state I -> list bytes -> list bytes -> Prop :=
| turn_none st : in_turn I st [] []
| turn_whole st text texts st' out outs : ic_conv I st text (4 * length text) = (st', out, None) ->
    in_turn I st' texts outs -> in_turn I st (text :: texts) (out :: outs)
| turn_invalid st text texts st' out e outs : ic_conv I st text (4 * length text) = (st', out, Some e) -> e = EILSEQ \/ e = EINVAL ->
    in_turn I (ic_reset I st') texts outs -> in_turn I st (text :: texts) (out :: outs).
(** the results of IConv::convert called on each *)
Fixpoint convert_all {I} (ndebug : bool) (c : iconv I) (texts : list bytes) : list (outcome bytes) :=
  match texts with
  | [] => []
  | t :: ts => let '(o, c', _) := convert ndebug c t in o :: convert_all ndebug c' ts
  end.
