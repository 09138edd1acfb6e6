(** Model of src/log.cpp, include/tinygettext/log.hpp and log_stream.hpp. *)
From Verif.Model Require Import Base.

Inductive level := LInfo | LWarning | LError.

(** One executed log statement [log_xxx << ... << std::endl]: its level and the
    complete text streamed into it (std::endl is "\n"). *)
Record log_stmt := { lg_level : level; lg_text : bytes }.

Definition log_info (t : bytes) : log_stmt := {| lg_level := LInfo; lg_text := t ++ [c_lf] |}.
Definition log_warning (t : bytes) : log_stmt := {| lg_level := LWarning; lg_text := t ++ [c_lf] |}.
Definition log_error (t : bytes) : log_stmt := {| lg_level := LError; lg_text := t ++ [c_lf] |}.

(** Callback pointers: [None] is nullptr; identified by a number. *)
Definition callback := option nat.

(** The three static members, log.cpp:25-27 *)
Record log_config := { lc_info : callback; lc_warning : callback; lc_error : callback }.

(** 0 stands for Log::default_log_callback (log.cpp:29-33). *)
Definition log_default : log_config :=
  {| lc_info := Some 0; lc_warning := Some 0; lc_error := Some 0 |}.

Definition callback_of (c : log_config) (l : level) : callback :=
  match l with LInfo => lc_info c | LWarning => lc_warning c | LError => lc_error c end.

(** A client history: set_log_*_callback (log.cpp:35-51) or one log statement.
    A statement is the macro of log_stream.hpp:28-30 expanded on a sequence of
    [<<] insertions: if the callback is null nothing is evaluated, else a
    temporary [Log] (log.cpp:53-57) collects the pieces in its ostringstream
    ([get], log.cpp:64-68) and its destructor (log.cpp:59-62) calls the callback
    with the collected text at the end of the full expression. *)
Inductive log_op :=
| SetInfo (c : callback) | SetWarning (c : callback) | SetError (c : callback)
| Stmt (l : level) (pieces : list bytes).

(** Callback invocations: which callback, with which text. *)
Definition invocation := (nat * bytes)%type.

(** Log object: callback and accumulated stream; log.hpp:43-45 *)
Record log_obj := { lo_callback : nat; lo_out : bytes }.
Definition log_new (cb : nat) : log_obj := {| lo_callback := cb; lo_out := [] |}.
Definition log_put (o : log_obj) (piece : bytes) : log_obj :=
  {| lo_callback := lo_callback o; lo_out := lo_out o ++ piece |}.
Definition log_destroy (o : log_obj) : list invocation := [(lo_callback o, lo_out o)].

Definition log_step (c : log_config) (op : log_op) : log_config * list invocation :=
  match op with
  | SetInfo cb => ({| lc_info := cb; lc_warning := lc_warning c; lc_error := lc_error c |}, [])
  | SetWarning cb => ({| lc_info := lc_info c; lc_warning := cb; lc_error := lc_error c |}, [])
  | SetError cb => ({| lc_info := lc_info c; lc_warning := lc_warning c; lc_error := cb |}, [])
  | Stmt l pieces =>
      match callback_of c l with
      | None => (c, [])
      | Some cb => (c, log_destroy (fold_left log_put pieces (log_new cb)))
      end
  end.

Fixpoint log_run (c : log_config) (ops : list log_op) : log_config * list invocation :=
  match ops with
  | [] => (c, [])
  | op :: ops' => let (c1, i1) := log_step c op in
                  let (c2, i2) := log_run c1 ops' in (c2, i1 ++ i2)
  end.

(** The invocations caused by statements executed by the library under a fixed
    callback configuration. *)
Definition deliver (c : log_config) (s : log_stmt) : list invocation :=
  snd (log_step c (Stmt (lg_level s) [lg_text s])).
