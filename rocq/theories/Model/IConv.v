(** Model of src/iconv.cpp and include/tinygettext/iconv.hpp. *)
From Verif.Model Require Import Base Log.
Local Open Scope list_scope.

(** errno after a failing iconv call. *)
Inductive errno := EILSEQ | EINVAL | E2BIG | EBADF | EOTHER (n : nat).

(** The iconv(3) implementation, an oracle that theorems quantify over.
    [ic_open to from]: descriptor state, or errno and its strerror text.
    [ic_conv st text cap]: new state, bytes written (at most [cap], see
    [iconv_ok]), and errno if iconv returned -1.
    [ic_reset st]: iconv(cd, NULL, NULL, NULL, NULL). *)
Record iconv_impl := {
  ic_state : Type;
  ic_open : bytes -> bytes -> ic_state + (errno * bytes);
  ic_conv : ic_state -> bytes -> nat -> ic_state * bytes * option errno;
  ic_reset : ic_state -> ic_state }.

(** The contract of iconv(3) the model relies on: never writes more than it was
    given room for. *)
Definition iconv_ok (I : iconv_impl) : Prop :=
  forall st text cap, length (snd (fst (ic_conv I st text cap))) <= cap.

(** iconv_t: nullptr, (iconv_t)-1, or a descriptor returned by iconv_open
    (identified by a serial number; ghost). *)
Inductive cdesc (I : iconv_impl) :=
| CdNull
| CdInvalid
| CdOpen (id : nat) (st : ic_state I).
Arguments CdNull {I}. Arguments CdInvalid {I}. Arguments CdOpen {I} id st.

(** Observable effects: library calls on descriptors and log statements. *)
Inductive event :=
| EvLog (s : log_stmt)
| EvOpen (id : nat)
| EvUse (id : nat)
| EvReset (id : nat)
| EvClose (id : option nat).   (* None: iconv_close((iconv_t)-1) *)

(** class IConv, iconv.hpp:78-83; [cv_next] is the ghost serial of the next
    descriptor. *)
Record iconv (I : iconv_impl) := {
  cv_to : bytes; cv_from : bytes; cv_cd : cdesc I; cv_next : nat }.
Arguments cv_to {I} i. Arguments cv_from {I} i. Arguments cv_cd {I} i. Arguments cv_next {I} i.

(** IConv::IConv(), iconv.cpp:33-37 *)
Definition iconv_new (I : iconv_impl) : iconv I :=
  {| cv_to := []; cv_from := []; cv_cd := CdNull; cv_next := 0 |}.

Definition close_events {I} (cd : cdesc I) : list event :=
  match cd with
  | CdNull => []
  | CdInvalid => [EvClose None]
  | CdOpen id _ => [EvClose (Some id)]
  end.

(** IConv::~IConv, iconv.cpp:47-51 *)
Definition iconv_destroy {I} (c : iconv I) : list event := close_events (cv_cd c).

(** IConv::set_charsets, iconv.cpp:53-92. [strict]: toupper on a negative char is
    undefined. Order of effects: close old, upper-case, open new. *)
Definition set_charsets {I} (strict : bool) (c : iconv I) (from to : bytes)
  : outcome unit * iconv I * list event :=
  let ev0 := close_events (cv_cd c) in
  if strict && (existsb hi to || existsb hi from) then (Ub UbCtype, c, ev0)
  else
    let to' := List.map toupper to in
    let from' := List.map toupper from in
    if bytes_eqb to' from' then
      (Ret tt, {| cv_to := to'; cv_from := from'; cv_cd := CdNull; cv_next := cv_next c |}, ev0)
    else
      match ic_open I (c_str to') (c_str from') with
      | inl st =>
          (Ret tt, {| cv_to := to'; cv_from := from'; cv_cd := CdOpen (cv_next c) st;
                      cv_next := S (cv_next c) |}, ev0 ++ [EvOpen (cv_next c)])
      | inr (e, txt) =>
          (Exn (ExRuntime
                  match e with
                  | EINVAL => bs "IConv construction failed: conversion from '" ++ from'
                              ++ bs "' to '" ++ to' ++ bs "' not available"
                  | _ => bs "IConv: construction failed: " ++ txt
                  end),
           {| cv_to := to'; cv_from := from'; cv_cd := CdInvalid; cv_next := cv_next c |}, ev0)
      end.

(** IConv::convert, iconv.cpp:94-142. [ndebug]: assert() compiled out. *)
Definition convert {I} (ndebug : bool) (c : iconv I) (text : bytes)
  : outcome bytes * iconv I * list event :=
  match cv_cd c with
  | CdNull => (Ret text, c, [])
  | CdInvalid => (Ub UbIconv, c, [])
  | CdOpen id st =>
      let '(st', out, err) := ic_conv I st text (4 * length text) in
      let upd s := {| cv_to := cv_to c; cv_from := cv_from c; cv_cd := CdOpen id s; cv_next := cv_next c |} in
      match err with
      | None => (Ret out, upd st', [EvUse id])
      | Some e =>
          match e with
          | EILSEQ | EINVAL =>
              (Ret out, upd (ic_reset I st'),
               [EvUse id; EvReset id;
                EvLog (log_error (bs "error: tinygettext:iconv: invalid multibyte sequence in:  "
                                  ++ [c_dq] ++ text ++ [c_dq]))])
          | _ => if ndebug then (Ret out, upd st', [EvUse id])
                 else (AssertFail, upd st', [EvUse id])
          end
      end
  end.
