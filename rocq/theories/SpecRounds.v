(** Small specification of the round state machines in terms of the history of
    deliveries. *)
From Coq Require Import List Arith.
From Verif Require Import Bytes Prims Errors KeyAgg Nonces Signature Signing SigAgg Rounds SpecCtx SpecSession.
Import ListNotations.
Open Scope nat_scope.

(** The contribution on file for signer [i] after some deliveries: the first one. *)
Definition on_file {A} (calls : list (nat * A)) (i : nat) : option A :=
  option_map snd (find (fun c => fst c =? i) calls).

Section SpecRounds.
Context {Pr : prims}.

(** A sequence of calls to [receive_nonce]: the final state and all results. *)
Fixpoint fr_run (r : first_round Pr) (calls : list (nat * pub_nonce Pr))
  : first_round Pr * list (res contribution_error unit) :=
  match calls with
  | [] => (r, [])
  | (i, n) :: cs =>
      let (r1, o) := receive_nonce r i n in
      let (r2, os) := fr_run r1 cs in (r2, o :: os)
  end.

(** A sequence of calls to [receive_signature]. *)
Fixpoint sr_run (r : second_round Pr) (calls : list (nat * mscalar Pr))
  : second_round Pr * list (res contribution_error unit) :=
  match calls with
  | [] => (r, [])
  | (i, s) :: cs =>
      let (r1, o) := receive_signature r i s in
      let (r2, os) := sr_run r1 cs in (r2, o :: os)
  end.

(** The equation of signer [i]'s partial signature in a session of context [c] with the
    public nonces [pns]. *)
Definition session_valid (c : key_agg_ctx Pr) (pns : list (pub_nonce Pr)) (T : pt) (msg : bytes)
    (i : nat) (s : mscalar Pr) : Prop :=
  exists pk pn, nth_error (pubkeys c) i = Some pk /\ nth_error pns i = Some pn /\
    psig_valid c (agg_sum pns) T msg pk pn s.

(** A first round as made by [FirstRound::new] on a context of the API. *)
Definition fr_started (r0 : first_round Pr) : Prop :=
  exists c seed i sp, ctx_reachable c /\ first_round_new c seed i sp = Ok r0.

(** A second round as made by [FirstRound::finalize_adaptor] (of which [finalize] is the
    case without adaptor) after any calls to [receive_nonce]. *)
Definition sr_started (r0 : second_round Pr) : Prop :=
  exists r1 calls sk T msg, fr_started r1 /\
    fr_finalize_adaptor (fst (fr_run r1 calls)) sk T msg = Ok r0.

(** The signatures a second round can accept. *)
Definition sr_valid (r0 : second_round Pr) (i : nat) (s : mscalar Pr) : Prop :=
  session_valid (sr_ctx r0) (sr_pubnonces r0) (sr_adaptor r0) (sr_message r0) i s.

End SpecRounds.
