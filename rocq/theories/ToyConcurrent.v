(** A forger with one session on the toy curve, for the examples of PropertiesConcurrent.v. *)
From Coq Require Import String List.
From Verif Require Import Bytes Prims TaggedHashes Errors SpecTags SpecBIP327 KeyAgg Nonces SpecView SpecSession SpecExtract SpecReuse SpecAlgebra SpecFork SpecConcurrent
  Toy ToyData ToyReuse ToyFork ToyAlgebra.
Import ListNotations.
Local Open Scope list_scope.
Local Open Scope Z_scope.

(** The session of 3*G with 13*G of ToyAlgebra.v, as the program sees it. *)
Definition con_open : opened Toy := Opened (aggregated_pubkey reuse_c)
  (spec_a reuse_c (base_mul (tsc 3)) * (spec_g (use_values (z_use alg_session)) * v_gacc (use_values (z_use alg_session)))) pt_O.
(** Its end. *)
Definition con_end : ending Toy := Ending (aR1 (reuse_an 2 2)) (aR2 (reuse_an 2 2)) toy_msg.
(** The group's key is to be forged for. *)
Definition con_target : target Toy := Target (aggregated_pubkey reuse_c)
  (key_sign reuse_c * (if parity_acc reuse_c then -1 else 1) * on_P (sum_rep (pubkeys reuse_c) alg_keys)).
(** The forged nonce is 9*G. *)
Definition con_attempt : attempt Toy := Attempt [con_end] (@pt_x Toy (pval (tpt 9))) toy_msg.
(** Its challenge. *)
Definition con_new : bytes := Eval vm_compute in new_challenge con_target con_attempt.
(** The input of the nonce coefficient. *)
Definition con_coef : bytes := Eval vm_compute in coef_input con_open con_end.
(** The input of the challenge of the session, when that has the digest [d]. *)
Definition con_challenge (d : bytes) : bytes := end_challenge (fun _ => d) con_open con_end.
(** The program asks for the three digests. *)
Definition con_forger : asker (attempt Toy) :=
  Ask con_coef (fun d => Ask (con_challenge d) (fun _ => Ask con_new (fun _ => Give con_attempt))).
(** At the last question it names the combination with which it is lucky if the digest is 1. *)
Definition con_names (l : list (bytes * bytes)) (m : bytes) : rep :=
  match l with
  | [(_, d); (_, e)] => Rep 0 (end_factor (fun _ => d) con_open con_end * int_from_bytes e - y_factor con_target) (fun _ => 1) (fun _ => int_from_bytes d)
  | _ => Rep 0 0 (fun _ => 0) (fun _ => 0)
  end.
(** The inputs, with two digests. *)
Definition con_inputs : list bytes := Eval vm_compute in [con_coef; con_challenge (be_enc 32 0); con_challenge (be_enc 32 1); con_new].

(** The program stays within the inputs. *)
Lemma con_asks : asks_within con_inputs (toy_digests 2) (fun _ => True) 3 con_forger.
Proof.
  cbn [asks_within con_forger]. split; [left; reflexivity|]. intros d [<- | [<- | []]].
  - split; [right; left; vm_compute; reflexivity|]. intros d' _. split; [do 3 right; left; reflexivity|]. intros d'' _. exact I.
  - split; [do 2 right; left; vm_compute; reflexivity|]. intros d' _. split; [do 3 right; left; reflexivity|]. intros d'' _. exact I.
Qed.
(** The two digests differ. *)
Lemma con_digests : NoDup (toy_digests 2).
Proof.
  constructor; [intros [E | []]; vm_compute in E; discriminate E|]. constructor; [intros []|constructor].
Qed.
(** The session of ToyAlgebra.v is the one that the program sees. *)
Lemma con_describes : describes (@sha256 Toy) (base_mul (tsc 3)) con_open con_end alg_session.
Proof. repeat split. Qed.
