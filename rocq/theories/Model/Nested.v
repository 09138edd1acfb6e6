(** Log callbacks that use the library: a callback (log.hpp:28, log_callback_t) is any function of the
    program; here it may look up messages in dictionaries (say, to translate what it prints), set
    callbacks and print. A lookup executes its log statements (dictionary.cpp:80-172,
    log_stream.hpp:28-30) one by one, each of them calling the callback of its level, from ~Log()
    (log.cpp:59-62), before it goes on.
    Simplification: the dictionaries do not change meanwhile. *)
From Verif.Model Require Import Base Log PluralForms Dictionary Callbacks.
Local Open Scope list_scope.

(** lookups in a live dictionary, dictionary.hpp:63-82 *)
Inductive query :=
| QTranslate (p : ptr) (msgid : bytes)
| QTranslateCtxt (p : ptr) (msgctxt msgid : bytes)
| QTranslatePlural (p : ptr) (msgid msgid_plural : bytes) (num : Z)
| QTranslateCtxtPlural (p : ptr) (msgctxt msgid msgid_plural : bytes) (num : Z).

(** what a callback, or the program itself, does *)
Inductive prog :=
| Done
| Print (t : bytes) (p : prog)
| Set_ (s : setting) (p : prog)
| Look (q : query) (k : bytes -> prog).

Section Nested.
  Variable h : heap.
  Variable stack : nat.           (* the depth of recursion through fallbacks the stack allows *)
  (** what callback [cb] does with a text *)
  Variable body : nat -> bytes -> prog.

  (** the answer to a lookup and the log statements it executes *)
  Definition answer (q : query) : outcome bytes * list log_stmt :=
    let at_ p (f : dictionary -> outcome bytes * list log_stmt) :=
      match heap_get h p with Some d => f d | None => (Ub UbPointer, []) end in
    match q with
    | QTranslate p i => at_ p (fun d => translate stack h d i)
    | QTranslateCtxt p c i => at_ p (fun d => translate_ctxt stack h d c i)
    | QTranslatePlural p i pl n => at_ p (fun d => let (t, l) := translate_plural d i pl n in (Ret t, l))
    | QTranslateCtxtPlural p c i pl n => at_ p (fun d => let (t, l) := translate_ctxt_plural d c i pl n in (Ret t, l))
    end.

  Definition printed (out : list bytes) (r : log_config * list bytes) : log_config * list bytes := (fst r, out ++ snd r).
  (** log statements, each handed to the callback of its level, if there is one *)
  Fixpoint tell (call : nat -> bytes -> log_config -> outcome (log_config * list bytes)) (ls : list log_stmt) (c : log_config)
    : outcome (log_config * list bytes) :=
    match ls with
    | [] => Ret (c, [])
    | l :: ls' =>
        obind (match callback_of c (lg_level l) with None => Ret (c, []) | Some cb => call cb (lg_text l) c end)
              (fun r => omap (printed (snd r)) (tell call ls' (fst r)))
    end.
  (** [n]: how many callbacks may be running inside each other (the stack is finite) *)
  Fixpoint run (n : nat) (p : prog) (c : log_config) {struct n} : outcome (log_config * list bytes) :=
    (fix go (p : prog) (c : log_config) : outcome (log_config * list bytes) :=
      match p with
      | Done => Ret (c, [])
      | Print t p' => omap (printed [t]) (go p' c)
      | Set_ s p' => go p' (apply_setting c s)
      | Look q k =>
          let (o, ls) := answer q in
          obind (tell (fun cb t c => match n with O => OutOfFuel | S n' => run n' (body cb t) c end) ls c)
            (fun r => obind o (fun a => omap (printed (snd r)) (go (k a) (fst r))))
      end) p c.
End Nested.
