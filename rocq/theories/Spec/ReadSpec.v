(** Vocabulary for read errors. *)
From Verif.Model Require Import Base Dictionary Stream PoParser Manager.
From Verif.Spec Require Import ParserSpec PoSpec.
Local Open Scope list_scope.

(** Two parses that end the same way, leave the same dictionary, print the same
    messages and made the same calls on the dictionary. *)
Definition parses_alike (a b : parse_result) : Prop :=
  pr_outcome a = pr_outcome b /\ pr_dict a = pr_dict b /\ pr_trace a = pr_trace b /\ pr_calls a = pr_calls b.

(** [b] is empty or its last line, ended by a newline, is white: a block cannot go on
    behind [b]. *)
Definition between_blocks (b : bytes) : Prop :=
  b = [] \/ exists p w, b = p ++ w ++ [c_lf] /\ complete p /\ white w /\ one_line w.

(** The Unix file system on a disk some of whose files cannot be read to their end: on
    those in [bad], the bytes of [o] are delivered and the next read fails (for a
    directory: no bytes). *)
Definition faulty_file_system (o : os_state) (bad : bytes -> bool) : file_system := {|
  fs_dir := fs_dir (unix_file_system o);
  fs_file := fun f => match os_file o f with
                      | Some b => Ret (Some (if bad f then broken_after b else stream_of b))
                      | None => Ret (Some failed_stream)
                      end |}.

(** [o'] is the disk [o] with the bad files replaced by their complete blocks: every bad
    file holds complete blocks and then possibly part of one line. *)
Definition salvaged (o : os_state) (bad : bytes -> bool) (o' : os_state) : Prop :=
  (forall p, os_dir o' p = os_dir o p) /\
  forall f, match os_file o f with
            | None => os_file o' f = None
            | Some b => if bad f then exists pre l, b = pre ++ l /\ between_blocks pre /\ one_line l /\ os_file o' f = Some pre
                        else os_file o' f = Some b
            end.
