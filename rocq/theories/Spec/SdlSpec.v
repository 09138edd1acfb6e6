(** What changes when the library is built with SDL's conversions. *)
From Verif.Model Require Import Base Log IConv PoParser Sdl.
Local Open Scope list_scope.

(** iconv returns a number of conversions, not (size_t)-1, when it succeeds *)
Definition counts {I : iconv_impl} (n : ic_state I -> bytes -> nat -> Z) : Prop :=
  forall st text cap, (0 <= n st text cap < 18446744073709551612)%Z.

(** the same configuration, with another iconv *)
Definition with_iconv (cf : config) (I : iconv_impl) : config :=
  {| cf_pedantic := cf_pedantic cf; cf_strict := cf_strict cf; cf_ndebug := cf_ndebug cf; cf_fuel := cf_fuel cf; cf_iconv := I |}.

(** The conversions do not depend on what has been converted before: states that are [like]
    each other convert alike, and a reset state is like the state it was. (All conversions
    between charsets without shift states and marks.) Errors are invalid or incomplete input:
    four bytes of room for each byte suffice. *)
Definition memoryless (I : iconv_impl) : Prop :=
  exists like : ic_state I -> ic_state I -> Prop,
    (forall to from st, ic_open I to from = inl st -> like st st) /\
    forall st1 st2 text, like st1 st2 ->
      let '(st1', out1, err1) := ic_conv I st1 text (4 * length text) in
      let '(st2', out2, err2) := ic_conv I st2 text (4 * length text) in
      out1 = out2 /\ err1 = err2 /\ (forall e, err1 = Some e -> e = EILSEQ \/ e = EINVAL) /\
      like st1' st2' /\ like (ic_reset I st1') st2'.

(** [silenced a b]: b is a without the complaints about failed conversions (each being a reset
    of the descriptor and a logged error), and without nothing else than
    those *)
Inductive silenced : list event -> list event -> Prop :=
| sil_nil : silenced [] []
| sil_keep e a b : (forall id, e <> EvReset id) -> silenced a b -> silenced (e :: a) (e :: b)
| sil_drop id text a b : silenced a b ->
    silenced (EvReset id :: EvLog (log_error (bs "error: tinygettext:iconv: invalid multibyte sequence in:  " ++ [c_dq] ++ text ++ [c_dq])) :: a) b.
