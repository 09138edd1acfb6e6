(** Model of the lazily filled function-static tables: plural_forms.cpp:67-98 and
    106, language.cpp:300-356 and 363, language.cpp:380-388. Each thread runs
      if (table.empty()) for each row: table[key] = value;   it = table.find(key);
    Shared-memory steps (the emptiness test, each insertion, the lookup) interleave
    arbitrarily. In C++ the interleavings are data races, hence undefined; the model
    shows what goes wrong even under sequential consistency. Construction of the
    empty static object itself is thread-safe in C++11 and not modelled. *)
From Verif.Model Require Import Base.
Local Open Scope list_scope.

Section Lazy.
  Context {V : Type}.
  Variable rows : list (bytes * V).

  Inductive pc :=
  | PcTest                               (* about to evaluate table.empty() *)
  | PcFill (todo : list (bytes * V))     (* rows still to insert *)
  | PcDone (result : option V).          (* lookup performed *)

  Record thread := { th_key : bytes; th_pc : pc }.

  Definition table := list (bytes * V).

  (** one step of one thread *)
  Definition tstep (t : thread) (tb : table) : thread * table :=
    match th_pc t with
    | PcTest => ({| th_key := th_key t; th_pc := if is_nil tb then PcFill rows else PcFill [] |}, tb)
    | PcFill [] => ({| th_key := th_key t; th_pc := PcDone (assoc (th_key t) tb) |}, tb)
    | PcFill ((k, v) :: r) => ({| th_key := th_key t; th_pc := PcFill r |}, assoc_set k v tb)
    | PcDone _ => (t, tb)
    end.

  (** Any number of threads, each about to look up its key; a schedule lists whose
      turn it is (a number that is nobody's is skipped). *)
  Fixpoint set_nth (i : nat) (t : thread) (ts : list thread) : list thread :=
    match ts, i with
    | [], _ => []
    | _ :: ts', O => t :: ts'
    | x :: ts', S j => x :: set_nth j t ts'
    end.
  Definition turn (s : list thread * table) (i : nat) : list thread * table :=
    match nth_error (fst s) i with
    | None => s
    | Some t => let (t', tb') := tstep t (snd s) in (set_nth i t' (fst s), tb')
    end.
  Definition callers (keys : list bytes) : list thread :=
    List.map (fun k => {| th_key := k; th_pc := PcTest |}) keys.
  Definition run_schedule (keys : list bytes) (tb : table) (sched : list nat) : list thread * table :=
    fold_left turn sched (callers keys, tb).

  (** a single thread running alone *)
  Fixpoint run_alone (fuel : nat) (t : thread) (tb : table) : thread * table :=
    match fuel with O => (t, tb) | S f => let (t', tb') := tstep t tb in run_alone f t' tb' end.
End Lazy.
