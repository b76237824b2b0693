(** Concrete sessions on the toy curve, used by the examples. *)
From Verif Require Import Bytes BytesFacts Prims PrimsFacts Errors Toy KeyAgg SpecCtx KeyAggFacts Nonces Signature Signing SigAgg Bip340 Rounds.
Open Scope Z_scope.

(** The value of a computation known to succeed. *)
Definition ok_val {E A} (r : res E A) : is_ok r = true -> A :=
  match r return is_ok r = true -> A with
  | Ok a => fun _ => a
  | Err _ => fun H => match Bool.diff_false_true H with end
  | Panic => fun H => match Bool.diff_false_true H with end
  end.
Lemma ok_val_eq {E A} (r : res E A) H : r = Ok (ok_val r H).
Proof. destruct r; cbn in *; [reflexivity | discriminate | discriminate]. Qed.

Lemma is_ok_ex {E A} (r : res E A) : is_ok r = true -> exists a, r = Ok a.
Proof. intro H. destruct r; cbn in *; [eauto | discriminate | discriminate]. Qed.

(** Decide outcomes by computation without normalising the result type. *)
Definition err_of {E A} (r : res E A) : option E := match r with Err e => Some e | _ => None end.
Lemma err_of_eq {E A} (r : res E A) e : err_of r = Some e -> r = Err e.
Proof. destruct r; cbn; congruence. Qed.
(** Whether a computation panicked. *)
Definition is_panic {E A} (r : res E A) : bool := match r with Panic => true | _ => false end.
Lemma is_panic_eq {E A} (r : res E A) : is_panic r = true -> r = Panic.
Proof. destruct r; cbn; congruence. Qed.
(** A property of the successful result. *)
Definition ok_and {E A} (r : res E A) (f : A -> bool) : bool := match r with Ok a => f a | _ => false end.

(** Three signers, the first and the last with the same key. *)
Definition sk_a : scalar Toy := tsc 3.
(** The key of the second signer. *)
Definition sk_b : scalar Toy := tsc 5.
(** The keys in order. *)
Definition toy_keys : list (point Toy) := [base_mul sk_a; base_mul sk_b; base_mul sk_a].

(** Their key aggregation context. *)
Definition toy_c0 : key_agg_ctx Toy := ok_val (key_agg_new toy_keys) ltac:(vm_compute; reflexivity).
Lemma toy_c0_eq : key_agg_new toy_keys = Ok toy_c0.
Proof. apply ok_val_eq. Qed.

(** Plain, x-only and plain tweaks; the last key has odd parity. *)
Definition toy_tweaks : list (scalar Toy * bool) := [(tsc 1, false); (tsc 9, true); (tsc 3, true)].
(** The context with these tweaks. *)
Definition toy_c : key_agg_ctx Toy := ok_val (with_tweaks toy_c0 toy_tweaks) ltac:(vm_compute; reflexivity).
Lemma toy_c_eq : with_tweaks toy_c0 toy_tweaks = Ok toy_c.
Proof. apply ok_val_eq. Qed.

Lemma toy_c0_reach : ctx_reachable toy_c0.
Proof. apply (reach_new toy_keys), toy_c0_eq. Qed.
Lemma toy_c_reach : ctx_reachable toy_c.
Proof. apply (reach_tweaks toy_c0 toy_tweaks); [apply toy_c0_reach | apply toy_c_eq]. Qed.

(** The same keys on [ToyLow]. *)
Definition low_keys : list (point ToyLow) := [base_mul (lsc 3); base_mul (lsc 5); base_mul (lsc 3)].
(** Their context. *)
Definition low_c0 : key_agg_ctx ToyLow := ok_val (key_agg_new low_keys) ltac:(vm_compute; reflexivity).
Lemma low_c0_eq : key_agg_new low_keys = Ok low_c0.
Proof. apply ok_val_eq. Qed.
Lemma low_c0_reach : ctx_reachable low_c0.
Proof. apply (reach_new low_keys), low_c0_eq. Qed.

(** A signing session of the three signers of [toy_c]. *)
Definition mk_sn (a b : positive) : sec_nonce Toy := {| k1 := tsc a; k2 := tsc b |}.
(** The message. *)
Definition toy_msg : bytes := [x6d; x73; x67].
(** The secret nonces. *)
Definition toy_sns : list (sec_nonce Toy) := [mk_sn 7 11; mk_sn 20 2; mk_sn 14 29].
(** The secret keys. *)
Definition toy_sks : list (scalar Toy) := [sk_a; sk_b; sk_a].
(** The public nonces. *)
Definition toy_pns : list (pub_nonce Toy) := map public_nonce toy_sns.
(** The aggregated nonce. *)
Definition toy_an : agg_nonce Toy := agg_sum toy_pns.
(** An adaptor point. *)
Definition toy_T : pt := gmul (tsc 5 : mscalar Toy).
(** The partial signatures of all signers. *)
Definition sign_all (c : key_agg_ctx Toy) (sns : list (sec_nonce Toy)) (T : pt) (msg : bytes) : list (mscalar Toy) :=
  map (fun p : scalar Toy * sec_nonce Toy =>
         match sign_partial_adaptor c (fst p) (snd p) (agg_sum (map public_nonce sns)) T msg with
         | Ok s => s | _ => fzero end) (combine toy_sks sns).
(** Those of the session, with the adaptor point [T]. *)
Definition toy_sigs (T : pt) : list (mscalar Toy) := sign_all toy_c toy_sns T toy_msg.
(** Nonces for which R1 + b*R2 is the point at infinity. *)
Definition toy_bad_sns : list (sec_nonce Toy) := [mk_sn 7 11; mk_sn 20 2; mk_sn 7 28].
(** Their aggregated nonce. *)
Definition toy_bad_an : agg_nonce Toy := agg_sum (map public_nonce toy_bad_sns).
(** Membership by computation. *)
Lemma in_toy (pk : point Toy) l : existsb (point_eqb pk) l = true -> In pk l.
Proof. intro H. apply existsb_exists in H as (q & H1 & H2). apply point_eqb_eq in H2. subst q. exact H1. Qed.
