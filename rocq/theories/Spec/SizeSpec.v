(** How much text a dictionary holds and a call carries. *)
From Verif.Model Require Import Base Log PluralForms Dictionary IConv Language Stream PoParser Manager.
Local Open Scope list_scope.

Definition total {A} (f : A -> nat) (l : list A) : nat := list_sum (List.map f l).
Definition texts_size (ts : list bytes) : nat := total (@length _) ts.

(** what an enumeration of the dictionary (foreach and foreach_ctxt) shows, in bytes *)
Definition dict_size (d : dictionary) : nat :=
  total (fun m => length (fst m) + texts_size (snd m)) (foreach d) +
  total (fun m => length (fst (fst m)) + length (snd (fst m)) + texts_size (snd m)) (foreach_ctxt d).
(** and how many messages *)
Definition messages (d : dictionary) : nat := length (foreach d) + length (foreach_ctxt d).

Definition opt_size (o : option bytes) : nat := match o with Some t => length t | None => 0 end.
(** the text handed to an add_translation call; the plural text is not stored *)
Definition call_size (c : dict_call) : nat :=
  match c with
  | CallAdd (AddSingular c i s) => opt_size c + length i + length s
  | CallAdd (AddPlural c i p ss) => opt_size c + length i + length p + texts_size ss
  | CallPlural _ => 0
  end.

(** A file system whose files have at most [B] bytes, or cannot be opened. *)
Definition files_within (B : nat) (fs : file_system) : Prop :=
  forall name i, fs_file fs name = Ret (Some i) ->
  i = failed_stream \/ exists b, i = stream_of b /\ length b <= B.

(** Log messages, and their bytes. *)
Definition log_count (evs : list event) : nat := total (fun e => match e with EvLog _ => 1 | _ => 0 end) evs.
Definition log_bytes (evs : list event) : nat := total (fun e => match e with EvLog l => length (lg_text l) | _ => 0 end) evs.
