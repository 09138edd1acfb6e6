(** What log callbacks may do (log.cpp, log_stream.hpp): a callback is any function of the
    program; it may call set_log_*_callback, and it may throw. The callback runs in
    ~Log() (log.cpp:59-62), which is implicitly noexcept (a destructor without exception
    specification, C++11 [class.dtor]): an exception that leaves it calls std::terminate.
    Simplification: callbacks do not themselves make the library log, and their state other
    than the three callback pointers is not modelled (a reaction may depend on how often
    any callback has been called before, which stands for it). *)
From Verif.Model Require Import Base Log.
Local Open Scope list_scope.

(** set_log_info_callback, set_log_warning_callback, set_log_error_callback, log.cpp:35-51 *)
Inductive setting := SetCallback (l : level) (c : callback).
Definition apply_setting (c : log_config) (s : setting) : log_config :=
  match s with
  | SetCallback LInfo cb => fst (log_step c (SetInfo cb))
  | SetCallback LWarning cb => fst (log_step c (SetWarning cb))
  | SetCallback LError cb => fst (log_step c (SetError cb))
  end.

(** What an invocation does: it returns, having made some settings, or throws. *)
Inductive reaction := Returns (s : list setting) | Throws.

(** [react n cb text]: the reaction of callback [cb] to [text] when [n] invocations have
    gone before. *)
Definition reactions := nat -> nat -> bytes -> reaction.

(** The library executes a log statement [log_xxx << pieces] (log_stream.hpp:28-30). *)
Definition log_stmt_step (react : reactions) (n : nat) (c : log_config) (l : level) (pieces : list bytes)
  : option log_config * list invocation :=
  match callback_of c l with
  | None => (Some c, [])
  | Some cb =>
      let o := fold_left log_put pieces (log_new cb) in
      (match react n (lo_callback o) (lo_out o) with
       | Returns s => Some (fold_left apply_setting s c)
       | Throws => None                                   (* std::terminate *)
       end, log_destroy o)
  end.

(** A sequence of settings by the program and statements executed by the library. [None]:
    the program has been terminated. *)
Fixpoint log_live (react : reactions) (n : nat) (c : log_config) (ops : list log_op)
  : option log_config * list invocation :=
  match ops with
  | [] => (Some c, [])
  | Stmt l pieces :: ops' =>
      match log_stmt_step react n c l pieces with
      | (None, i) => (None, i)
      | (Some c', i) => let (r, i') := log_live react (n + length i) c' ops' in (r, i ++ i')
      end
  | op :: ops' => log_live react n (fst (log_step c op)) ops'
  end.
