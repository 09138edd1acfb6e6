(** The std::istream fragment used by the parser (library semantics, not in
    /repo): the bytes still to be delivered, the eofbit, failbit or badbit, and
    whether reading on behind the last of those bytes fails (a read error: the
    stream buffer throws, as libstdc++'s filebuf does when read(2) fails, e.g. with
    EIO in mid-file, or with EISDIR at once for a directory) instead of meeting the
    end of the file. Streams with an exception mask are not modelled. *)
From Verif.Model Require Import Base.

Record istream := { is_rest : bytes; is_eof : bool; is_fail : bool; is_break : bool }.

Definition stream_of (b : bytes) : istream :=
  {| is_rest := b; is_eof := false; is_fail := false; is_break := false |}.

(** A stream that delivers [b] and then fails. *)
Definition broken_after (b : bytes) : istream :=
  {| is_rest := b; is_eof := false; is_fail := false; is_break := true |}.

(** An ifstream whose open() failed. *)
Definition failed_stream : istream :=
  {| is_rest := []; is_eof := false; is_fail := true; is_break := false |}.

Definition is_good (i : istream) : bool := negb (is_eof i) && negb (is_fail i).

(** Split at the first newline; [None] if there is none. *)
Fixpoint take_line (s : bytes) : bytes * option bytes :=
  match s with
  | [] => ([], None)
  | c :: s' => if byte_eqb c c_lf then ([], Some s')
               else let (l, r) := take_line s' in (c :: l, r)
  end.

(** std::getline(in, str), [string.io]: the sentry fails unless the stream is good,
    and then str is NOT touched and failbit is set. Otherwise str is erased and
    filled up to a newline (consumed, not stored) or end of input (eofbit; failbit
    too if nothing was extracted). If reading throws, what has been read so far is in
    str, badbit is set and the exception is swallowed ([istream.formatted.reqmts]).
    Result: stream, str, and !fail(). *)
Definition getline (i : istream) (buf : bytes) : istream * bytes * bool :=
  let after rest eof fail := {| is_rest := rest; is_eof := eof; is_fail := fail; is_break := is_break i |} in
  if is_good i then
    match is_rest i with
    | [] => if is_break i then (after [] false true, [], false) else (after [] true true, [], false)
    | _ => match take_line (is_rest i) with
           | (l, Some r) => (after r false false, l, true)
           | (l, None) => if is_break i then (after [] false true, l, false) else (after [] true false, l, true)
           end
    end
  else (after (is_rest i) (is_eof i) true, buf, false).
