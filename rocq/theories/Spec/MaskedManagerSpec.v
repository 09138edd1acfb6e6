(** Vocabulary for managers whose files are read from streams with exception masks. *)
From Verif.Model Require Import Base Log Dictionary IConv Language Stream PoParser Manager Masked MaskedManager.
From Verif.Spec Require Import DictSpec ParserSpec PoSpec ReadSpec.
Local Open Scope list_scope.

(** What open_file delivers: nothing (the file cannot be opened), or a file whose last line, ended by a
    newline, is white, or such a file with a part of one line behind it where reading fails. *)
Definition ends_blank (i : istream) : Prop :=
  i = failed_stream \/ exists b l, between_blocks b /\ one_line l /\ (i = stream_of b \/ i = broken_after (b ++ l)).
Definition files_end_blank (fs : file_system) : Prop := forall f i, fs_file fs f = Ret (Some i) -> ends_blank i.

(** [b] is the log [a] with reports about files inserted *)
Inductive noisier : list event -> list event -> Prop :=
| noisier_end : noisier [] []
| noisier_same e a b : noisier a b -> noisier (e :: a) (e :: b)
| noisier_report f a b : noisier a b ->
    noisier a (EvLog (log_error (bs "error: failure parsing: " ++ f)) :: EvLog (log_error io_failure) :: b).

(** the same dictionaries, cache, search path and settings *)
Definition same_store (a b : manager) : Prop := upd_tr a [] = upd_tr b [].

(** The call ended; it ended for the client, with a result or an exception. *)
Definition ended (o : outcome mout) : Prop := o <> OutOfFuel.
Definition ended_well (o : outcome mout) : Prop := match o with Ret _ | Exn _ => True | _ => False end.

(** The dictionary [d'] is at the same place as [d], and knows no message that [d] does not know. *)
Definition thinner (d' d : dictionary) : Prop :=
  d_charset d' = d_charset d /\ d_has_fallback d' = d_has_fallback d /\ d_fallback d' = d_fallback d /\
  forall k, lookup d' k <> None -> lookup d k <> None.
(** the same cache, search path, settings, and dictionaries at the same places that know no more *)
Definition thinner_store (b a : manager) : Prop :=
  upd_tr (upd_heap b []) [] = upd_tr (upd_heap a []) [] /\
  (forall p, heap_get (m_heap b) p = None <-> heap_get (m_heap a) p = None) /\
  forall p d' d, heap_get (m_heap b) p = Some d' -> heap_get (m_heap a) p = Some d -> thinner d' d.
