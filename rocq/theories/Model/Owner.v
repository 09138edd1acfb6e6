(** A program that owns any number of Dictionary objects and calls their members in any
    order (dictionary.hpp:34-139, dictionary.cpp): the part of the public interface that
    changes a dictionary, without manager and parser. *)
From Verif.Model Require Import Base Log PluralForms Dictionary.
Local Open Scope list_scope.

(** foreach / foreach_ctxt, dictionary.hpp:97-107, 115-128: the iterators are not const,
    so the function may take the vector by reference and assign to it. Simplification: what
    it assigns depends only on its arguments, so the (unspecified) order of the calls does
    not matter; and it does not call members of the dictionary that is being iterated. *)
Definition foreach_assign (f : bytes -> list bytes -> list bytes) (d : dictionary) : dictionary :=
  set_entries d (List.map (fun e => (fst e, f (fst e) (snd e))) (d_entries d)).
Definition foreach_ctxt_assign (f : bytes -> bytes -> list bytes -> list bytes) (d : dictionary) : dictionary :=
  set_ctxt d (List.map (fun ce => (fst ce, List.map (fun e => (fst e, f (fst ce) (fst e) (snd e))) (snd ce)))
                       (d_ctxt d)).

(** The members that change a dictionary. *)
Inductive dict_op :=
| DoAdd (op : add_op)                                            (* add_translation, dictionary.hpp:84-95 *)
| DoSetPlural (p : plural_forms)                                 (* set_plural_forms, dictionary.hpp:60 *)
| DoAddFallback (q : option ptr)                                 (* addFallback, dictionary.hpp:109-113 *)
| DoForeach (f : bytes -> list bytes -> list bytes)              (* foreach, dictionary.hpp:97-107 *)
| DoForeachCtxt (f : bytes -> bytes -> list bytes -> list bytes). (* foreach_ctxt, dictionary.hpp:115-128 *)

Definition do_dict_op (op : dict_op) (d : dictionary) : dictionary :=
  match op with
  | DoAdd op => fst (add_translation d op)
  | DoSetPlural p => set_plural_forms d p
  | DoAddFallback q => add_fallback d q
  | DoForeach f => foreach_assign f d
  | DoForeachCtxt f => foreach_ctxt_assign f d
  end.

(** What the program does: construct, destroy (dictionary.cpp:42-54), call. Objects are
    numbered in the order of their construction; a number is never used again. *)
Inductive owner_op :=
| New (charset : bytes)
| Delete (p : ptr)
| Call (p : ptr) (op : dict_op).

Record owner := { ow_heap : heap; ow_next : ptr }.
Definition no_objects : owner := {| ow_heap := []; ow_next := 0 |}.

(** Destroying or calling an object that does not exist (any more) is undefined. *)
Definition owner_step (s : owner) (op : owner_op) : outcome owner :=
  match op with
  | New cs => Ret {| ow_heap := (ow_next s, new_dictionary cs) :: ow_heap s; ow_next := S (ow_next s) |}
  | Delete p =>
      match heap_get (ow_heap s) p with
      | None => Ub UbPointer
      | Some _ => Ret {| ow_heap := List.filter (fun e => negb (Nat.eqb p (fst e))) (ow_heap s); ow_next := ow_next s |}
      end
  | Call p op =>
      match heap_get (ow_heap s) p with
      | None => Ub UbPointer
      | Some d => Ret {| ow_heap := heap_set (ow_heap s) p (do_dict_op op d); ow_next := ow_next s |}
      end
  end.

Fixpoint owner_run (s : owner) (ops : list owner_op) : outcome owner :=
  match ops with
  | [] => Ret s
  | op :: ops' => obind (owner_step s op) (fun s' => owner_run s' ops')
  end.
