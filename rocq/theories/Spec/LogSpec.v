(** What log callbacks are supposed to do. *)
From Verif.Model Require Import Base Log.
Local Open Scope list_scope.

(** The callback in force for a level after a history (most recent setting wins;
    initially the default callback, numbered 0). *)
Fixpoint in_force (l : level) (past : list log_op) (initial : callback) : callback :=
  match past with
  | [] => initial
  | op :: past' =>
      in_force l past'
        match op, l with
        | SetInfo c, LInfo => c
        | SetWarning c, LWarning => c
        | SetError c, LError => c
        | _, _ => initial
        end
  end.

(** The invocations owed for a history [ops] that follows [past]. *)
Fixpoint owed (past ops : list log_op) : list invocation :=
  match ops with
  | [] => []
  | op :: ops' =>
      match op with
      | Stmt l pieces =>
          match in_force l past (Some 0) with Some cb => [(cb, concat pieces)] | None => [] end
      | _ => []
      end ++ owed (past ++ [op]) ops'
  end.
