(** Contexts a program can hold: everything the public API can produce. *)
From Verif Require Import Bytes Prims Errors KeyAgg.

Section Reach.
Context {Pr : prims}.

(** A [KeyAggContext] obtained by [new], any sequence of tweaks, and decoding of
    arbitrary bytes on any target. *)
Inductive ctx_reachable : key_agg_ctx Pr -> Prop :=
| reach_new pks c : key_agg_new pks = Ok c -> ctx_reachable c
| reach_plain c t c' : ctx_reachable c -> with_plain_tweak c t = Ok c' -> ctx_reachable c'
| reach_xonly c t c' : ctx_reachable c -> with_xonly_tweak c t = Ok c' -> ctx_reachable c'
| reach_tweak c t x c' : ctx_reachable c -> with_tweak c t x = Ok c' -> ctx_reachable c'
| reach_tweaks c ts c' : ctx_reachable c -> with_tweaks c ts = Ok c' -> ctx_reachable c'
| reach_taproot c r c' : ctx_reachable c -> with_taproot_tweak c r = Ok c' -> ctx_reachable c'
| reach_unspendable c c' :
    ctx_reachable c -> with_unspendable_taproot_tweak c = Ok c' -> ctx_reachable c'
| reach_decoded tg b c : ctx_from_bytes tg b = Ok c -> ctx_reachable c.

End Reach.
