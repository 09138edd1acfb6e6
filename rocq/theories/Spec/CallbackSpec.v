(** What log callbacks can rely on. *)
From Verif.Model Require Import Base Log Callbacks.
Local Open Scope list_scope.

(** What has happened so far, oldest first: settings, by the program or by callbacks. *)
Fixpoint latest (l : level) (past : list setting) (initial : callback) : callback :=
  match past with
  | [] => initial
  | SetCallback l' cb :: past' =>
      latest l past' match l, l' with
                     | LInfo, LInfo | LWarning, LWarning | LError, LError => cb
                     | _, _ => initial
                     end
  end.

(** [happens react past n ops inv fate]: after the settings [past] and [n] invocations, the
    history [ops] causes the invocations [inv]; [fate] tells whether the program is still
    running at the end. *)
Inductive happens (react : reactions) : list setting -> nat -> list log_op -> list invocation -> bool -> Prop :=
| happens_end : forall past n, happens react past n [] [] true
| happens_info : forall past n cb ops inv b,
    happens react (past ++ [SetCallback LInfo cb]) n ops inv b ->
    happens react past n (SetInfo cb :: ops) inv b
| happens_warning : forall past n cb ops inv b,
    happens react (past ++ [SetCallback LWarning cb]) n ops inv b ->
    happens react past n (SetWarning cb :: ops) inv b
| happens_error : forall past n cb ops inv b,
    happens react (past ++ [SetCallback LError cb]) n ops inv b ->
    happens react past n (SetError cb :: ops) inv b
| happens_silent : forall past n l pieces ops inv b,
    latest l past (Some 0) = None ->
    happens react past n ops inv b ->
    happens react past n (Stmt l pieces :: ops) inv b
| happens_told : forall past n l pieces ops inv b cb sets,
    latest l past (Some 0) = Some cb ->
    react n cb (concat pieces) = Returns sets ->
    happens react (past ++ sets) (S n) ops inv b ->
    happens react past n (Stmt l pieces :: ops) ((cb, concat pieces) :: inv) b
| happens_thrown : forall past n l pieces ops cb,
    latest l past (Some 0) = Some cb ->
    react n cb (concat pieces) = Throws ->
    happens react past n (Stmt l pieces :: ops) [(cb, concat pieces)] false.
