(** Where a parse's dictionary additions come from: vocabulary for statements about
    arbitrary files. *)
From Verif.Model Require Import Base Log PluralForms Dictionary IConv Stream PoParser.
From Verif.Spec Require Import ParserSpec PoSpec.
Local Open Scope list_scope.

(** ** The lines of a file: split at newlines; what follows the last newline counts as a
    line unless it is empty; a byte order mark is dropped from the first line. *)
Fixpoint lines_from (acc b : bytes) : list bytes :=
  match b with
  | [] => if is_nil acc then [] else [acc]
  | c :: b' => if byte_eqb c c_lf then acc :: lines_from [] b' else lines_from (acc ++ [c]) b'
  end.
Definition lines_of (b : bytes) : list bytes := lines_from [] b.
Definition file_lines (b : bytes) : list bytes :=
  match lines_of b with l :: ls => drop_bom l :: ls | [] => [] end.

(** ** A file cut into pieces: lines that are skipped, and an entry, and the dictionary
    calls the entry leads to *)
Record piece_of_file := { pf_skipped : list bytes; pf_entry : po_entry; pf_calls : list dict_call }.
Definition pieces_lines (ps : list piece_of_file) : list bytes :=
  List.concat (List.map (fun p => pf_skipped p ++ entry_lines (pf_entry p)) ps).
Definition pieces_entries (ps : list piece_of_file) : list po_entry := List.map pf_entry ps.
Definition pieces_calls (ps : list piece_of_file) : list dict_call := List.concat (List.map pf_calls ps).

(** ** The converter in force *)
Section Converter.
  Context {I : iconv_impl}.
  (** states of a conversion descriptor after some use *)
  Inductive reaches (st : ic_state I) : ic_state I -> Prop :=
  | rs_refl : reaches st st
  | rs_conv st1 text cap : reaches st st1 -> reaches st (fst (fst (ic_conv I st1 text cap)))
  | rs_reset st1 : reaches st st1 -> reaches st (ic_reset I st1).

  (** the charset the last header names *)
  Fixpoint last_header (es : list po_entry) : option bytes :=
    match es with
    | [] => None
    | e :: es' => match last_header es' with
                  | Some h => Some h
                  | None => match is_header e with Some h => Some (hdr_charset h) | None => None end
                  end
    end.
  (** [in_force charset es c]: after the entries [es], [c] converts from the charset named
      by the last header among them to [charset]; no header, or the same charset: [c]
      leaves text alone *)
  Definition in_force (charset : bytes) (es : list po_entry) (c : iconv I) : Prop :=
    match last_header es with
    | None => cv_cd c = CdNull
    | Some from =>
        let from' := List.map toupper from in
        let to' := List.map toupper charset in
        if bytes_eqb to' from' then cv_cd c = CdNull
        else exists id st0 st, ic_open I (c_str to') (c_str from') = inl st0 /\ reaches st0 st /\
                               cv_cd c = CdOpen id st
    end.
  (** every piece's calls are what its entry means with the converter in force *)
  Fixpoint explained (ndebug : bool) (charset : bytes) (before : list po_entry) (ps : list piece_of_file) : Prop :=
    match ps with
    | [] => True
    | p :: ps' =>
        (exists c o c', in_force charset before c /\
           read_entry ndebug charset c (pf_entry p) = (o, c', pf_calls p)) /\
        explained ndebug charset (before ++ [pf_entry p]) ps'
    end.
End Converter.
