(** The build with TINYGETTEXT_WITH_SDL: tinygettext::iconv_open, iconv and iconv_close are
    SDL_iconv_open, SDL_iconv and SDL_iconv_close (iconv.hpp:43-75); class IConv (iconv.cpp) is
    the same. SDL_iconv does not say why it failed in errno, as iconv(3) does, but in the
    value it returns: SDL_ICONV_ERROR, _E2BIG, _EILSEQ or _EINVAL. *)
From Verif.Model Require Import Base Log IConv.
Local Open Scope list_scope.

(** SDL_stdinc.h: (size_t)-1 ... (size_t)-4, with a size_t of 64 bits *)
Definition SDL_ICONV_ERROR : Z := 18446744073709551615%Z.
Definition SDL_ICONV_E2BIG : Z := 18446744073709551614%Z.
Definition SDL_ICONV_EILSEQ : Z := 18446744073709551613%Z.
Definition SDL_ICONV_EINVAL : Z := 18446744073709551612%Z.

(** SDL's conversions, an oracle that theorems quantify over. [sd_conv st text cap]: new state,
    bytes written, the value returned, and what errno happens to be afterwards. *)
Record sdl_impl := {
  sd_state : Type;
  sd_open : bytes -> bytes -> sd_state + (errno * bytes);
  sd_conv : sd_state -> bytes -> nat -> sd_state * bytes * Z * errno;
  sd_reset : sd_state -> sd_state }.

(** SDL as iconv.cpp sees it: a call failed if it returned (size_t)-1, and errno says why,
    iconv.cpp:112-115 *)
Definition seen (S : sdl_impl) : iconv_impl := {|
  ic_state := sd_state S;
  ic_open := sd_open S;
  ic_conv := fun st text cap =>
    let '(st', out, ret, e) := sd_conv S st text cap in
    (st', out, if (ret =? 18446744073709551615)%Z then Some e else None);
  ic_reset := sd_reset S |}.

(** IConv::convert, iconv.cpp:94-142, in that build *)
Definition convert_sdl {S} (ndebug : bool) (c : iconv (seen S)) (text : bytes)
  : outcome bytes * iconv (seen S) * list event :=
  match cv_cd c with
  | CdNull => (Ret text, c, [])
  | CdInvalid => (Ub UbIconv, c, [])
  | CdOpen id st =>
      let '(st', out, ret, e) := sd_conv S st text (4 * length text) in
      let upd s : iconv (seen S) := {| cv_to := cv_to c; cv_from := cv_from c; cv_cd := CdOpen (I := seen S) id s; cv_next := cv_next c |} in
      if (ret =? 18446744073709551615)%Z then        (* ret == static_cast<size_t>(-1) *)
        match e with
        | EILSEQ | EINVAL =>
            (Ret out, upd (sd_reset S st'),
             [EvUse id; EvReset id;
              EvLog (log_error (bs "error: tinygettext:iconv: invalid multibyte sequence in:  "
                                ++ [c_dq] ++ text ++ [c_dq]))])
        | _ => if ndebug then (Ret out, upd st', [EvUse id]) else (AssertFail, upd st', [EvUse id])
        end
      else (Ret out, upd st', [EvUse id])
  end.

(** SDL on top of the C library's iconv (SDL_iconv.c, SDL_iconv: a failing call is turned into
    the code for its errno, "default" into SDL_ICONV_ERROR). [n]: the number iconv returned *)
Definition sdl_over (I : iconv_impl) (n : ic_state I -> bytes -> nat -> Z) : sdl_impl := {|
  sd_state := ic_state I;
  sd_open := ic_open I;
  sd_conv := fun st text cap =>
    let '(st', out, err) := ic_conv I st text cap in
    match err with
    | None => (st', out, n st text cap, EOTHER 0)
    | Some E2BIG => (st', out, SDL_ICONV_E2BIG, E2BIG)
    | Some EILSEQ => (st', out, SDL_ICONV_EILSEQ, EILSEQ)
    | Some EINVAL => (st', out, SDL_ICONV_EINVAL, EINVAL)
    | Some e => (st', out, SDL_ICONV_ERROR, e)
    end;
  sd_reset := ic_reset I |}.
