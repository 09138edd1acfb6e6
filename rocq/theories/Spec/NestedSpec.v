(** What happens when log callbacks use the library. *)
From Verif.Model Require Import Base Log PluralForms Dictionary Callbacks Nested.
From Verif.Spec Require Import DictSpec.
Local Open Scope list_scope.

Section Nested.
  Variable h : heap.
  Variable stack : nat.
  Variable body : nat -> bytes -> prog.

  (** [does p c c' out]: p ends, printing out; the callbacks were c and are c' then *)
  Inductive does : prog -> log_config -> log_config -> list bytes -> Prop :=
  | does_done c : does Done c c []
  | does_print t p c c' out : does p c c' out -> does (Print t p) c c' (t :: out)
  | does_set s p c c' out : does p (apply_setting c s) c' out -> does (Set_ s p) c c' out
  | does_look q k a ls c c1 c2 out1 out2 :
      answer h stack q = (Ret a, ls) -> told ls c c1 out1 -> does (k a) c1 c2 out2 ->
      does (Look q k) c c2 (out1 ++ out2)
  with told : list log_stmt -> log_config -> log_config -> list bytes -> Prop :=
  | told_nil c : told [] c c []
  | told_silent l ls c c' out : callback_of c (lg_level l) = None -> told ls c c' out -> told (l :: ls) c c' out
  | told_heard l ls cb c c1 c2 out1 out2 :
      callback_of c (lg_level l) = Some cb -> does (body cb (lg_text l)) c c1 out1 -> told ls c1 c2 out2 ->
      told (l :: ls) c c2 (out1 ++ out2).

  (** where a lookup looks, and for what *)
  Definition asked_of (q : query) : ptr :=
    match q with QTranslate p _ | QTranslateCtxt p _ _ | QTranslatePlural p _ _ _ | QTranslateCtxtPlural p _ _ _ _ => p end.
  Definition asked_for (q : query) : option bytes * bytes :=
    match q with
    | QTranslate _ i | QTranslatePlural _ i _ _ => (None, i)
    | QTranslateCtxt _ c i | QTranslateCtxtPlural _ c i _ _ => (Some c, i)
    end.

  (** all lookups of a program, whatever they are answered, satisfy P *)
  Fixpoint lookups (P : query -> Prop) (p : prog) : Prop :=
    match p with
    | Done => True
    | Print _ p | Set_ _ p => lookups P p
    | Look q k => P q /\ forall a, lookups P (k a)
    end.
  (** the lookup is answered (no dangling fallback, no fallback cycle) *)
  Definition answered (q : query) : Prop := exists a, fst (answer h stack q) = Ret a.
  (** ... and logs nothing: the message is there *)
  Definition found (q : query) : Prop := exists a, answer h stack q = (Ret a, []).

  (** a program that does not install callbacks before its last lookup *)
  Fixpoint installs (p : prog) : Prop :=
    match p with
    | Done => True
    | Print _ p | Set_ _ p => installs p
    | Look _ _ => False
    end.
  Fixpoint looks_first (p : prog) : Prop :=
    match p with
    | Done => True
    | Print _ p => looks_first p
    | Set_ (SetCallback _ None) p => looks_first p
    | Set_ (SetCallback _ (Some _)) p => installs p
    | Look q k => forall a, looks_first (k a)
    end.
  (** a callback that switches logging off, does its work, and may then install callbacks again *)
  Definition switches_off (p : prog) : Prop :=
    exists r, p = Set_ (SetCallback LInfo None) (Set_ (SetCallback LWarning None) (Set_ (SetCallback LError None) r)) /\ looks_first r.
End Nested.
