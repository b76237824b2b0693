(** How often a forger with concurrent sessions is lucky: C94. *)
From Coq Require Import String List.
From Verif Require Import Bytes BytesFacts Prims PrimsFacts TaggedHashes Errors SpecTags SpecBIP327
  KeyAgg Nonces Signature Signing SigAgg Bip340 SpecCtx SpecView SpecSession SpecExtract SpecReuse SpecAlgebra SpecFork SpecConcurrent Toy ToyData ToyReuse ToyAlgebra ToyFork ToyConcurrent.
Import ListNotations.
Open Scope list_scope.
Open Scope Z_scope.
From Verif Require Import ProofsConcurrent.

(** C94: how often a forger with concurrent sessions is lucky.  C89 leaves one case in which a forgery tells nothing
    about the signer's secrets: that it is made of the partial signatures alone.  Let the forger be a program
    that asks for at most q digests.  Its sessions with the signer, their groups, public nonces and
    adaptor points are fixed before the first question, and so is the group that it forges for; when
    and how it ends each session (with which aggregated nonce and message) is its own choice, after
    whatever digests.  At each question it has to name ([names]) how the nonce in it is made of the
    generator, the signer's key and the nonces of the sessions.  Over all the functions from the inputs to the digests, of which at most
    c have the same residue, the share of those with which its forgery is in order and still made of the answers alone
    is at most (q + (k+1)q(q-1)/2) c/|digests|, with k sessions.  So with concurrent sessions too, this case is rare as long as
    q is small against the root of the group's order.  That is due to the two nonces:
    with adaptor points named after the nonces a forger has it always (C91). *)
Theorem C94_lucky_rare {Pr : prims} {Laws : prims_ok Pr} {Tags : tags_ok Pr} (O : list (opened Pr)) (Y : target Pr) (names : list (bytes * bytes) -> bytes -> rep) (F : asker (attempt Pr)) (inputs digests : list bytes) (q c : nat) (HY : y_factor Y mod n_ <> 0) (HS : NoDup digests) (Hc : forall d, In d digests -> (count (same_residue d) digests <= c)%nat) (HF : asks_within inputs digests (fun _ => True) q F) :
  let lucky_worlds := count (fun w => lucky O Y names F (hash_in w)) (worlds inputs digests) in
  (2 * (length digests * lucky_worlds) <= (2 * q + (length O + 1) * (q * (q - 1))) * (length digests ^ length inputs * c))%nat.
Proof. exact (@C94_lucky_rare_proof Pr Laws Tags O Y names F inputs digests q c HY HS Hc HF). Qed.
Print Assumptions C94_lucky_rare.

(** The program asks for the nonce coefficient of its session of 3*G with 13*G, for the challenge of the session, and then
    for the challenge of its forgery, where it names the combination that leaves nothing if the digest is 1.  With 2
    digests for the 4 inputs that there can be, it is lucky in 8 of 16 worlds. *)
Example C94_lucky_case :
  let digests := toy_digests 2 in
  y_factor con_target mod 31 = 5 /\ asks_within con_inputs digests (fun _ => True) 3 con_forger /\
  NoDup digests /\ (forall d, In d digests -> count (same_residue (Pr := Toy) d) digests = 1%nat) /\
  count (fun w => lucky [con_open] con_target con_names con_forger (@hash_in Toy w)) (worlds con_inputs digests) = 8%nat.
Proof.
  cbv zeta. split; [vm_compute; reflexivity|]. split; [exact con_asks|]. split; [exact con_digests|].
  split; [intros d [<- | [<- | []]]; vm_compute; reflexivity|]. vm_compute. reflexivity.
Qed.

(** Otherwise the forger solves for a secret: for each hash function with which the signature verifies and is in order and the program
    is not lucky, the s of its signature is an equation of which the secret of P is the only solution, once those
    of the second nonces are given, or of which the secret of the second nonce of one session is the only solution, once
    the others are given.  The sessions are those of the model's signers with that hash function. *)
Theorem C94_unlucky_forger_solves {Pr : prims} {Laws : prims_ok Pr} {Tags : tags_ok Pr} (h : bytes -> bytes) (Hlen : forall m, length (h m) = 32%nat) (Tags' : tags_ok (with_hash Pr h)) (P : point Pr) (O : list (opened Pr)) (Y : target Pr) (names : list (bytes * bytes) -> bytes -> rep) (F : asker (attempt Pr)) (S : list (closed (with_hash Pr h))) (c : key_agg_ctx (with_hash Pr h)) (sig : bytes) (rK : point (with_hash Pr h) -> rep) (Hc : ctx_reachable c) (H : verify_single_bytes (aggregated_pubkey c) sig (t_msg (outcome h F)) = Ok tt) (HS : forall z, In z S -> session_of (rehash h P) z) (Hrx : firstn 32 sig = t_rx (outcome h F)) (HR : forall R, pt_lift (firstn 32 sig) = Some R -> stands (rehash h P) S (names (until h (new_challenge Y (outcome h F)) F) (new_challenge Y (outcome h F))) R) (HK : forall K, In K (pubkeys c) -> stands (rehash h P) S (rK K) (pval K)) (HK0 : forall K j, on_R1 (rK K) j = 0 /\ on_R2 (rK K) j = 0) (HY : pval (aggregated_pubkey c) = pval (y_key Y)) (Hfac : (key_sign c * (if parity_acc c then -1 else 1) * on_P (sum_rep (pubkeys c) rK)) mod @n_ Pr = y_factor Y mod @n_ Pr) (Hlen' : length S = length (ended O (outcome h F))) (Hses : forall j oe z, nth_error (ended O (outcome h F)) j = Some oe -> nth_error S j = Some z -> describes h P (fst oe) (snd oe) z) (Hfresh : fresh O Y F h = true) (Hluck : lucky O Y names F h = false) :
  let t := outcome h F in
  let msg := t_msg t in
  let m := plus (names (until h (new_challenge Y t) F) (new_challenge Y t)) (forged_E c sig msg) (sum_rep (pubkeys c) rK) in
  let s := int_from_bytes (skipn 32 sig) in
  let second j := fun y : Z => forall z, nth_error S j = Some z -> @point_mul Pr pt_G y = pval (pR2 (z_nonce z)) in
  (forall y, (forall j, second j (y j)) ->
   forall x, s mod @n_ Pr = whole (rehash h P) S c sig msg m x y mod @n_ Pr <-> point_mul pt_G x = pval P) \/
  (exists j, (j < length S)%nat /\
   forall x y, point_mul pt_G x = pval P -> (forall i, i <> j -> second i (y i)) ->
   (s mod @n_ Pr = whole (rehash h P) S c sig msg m x y mod @n_ Pr <-> second j (y j))).
Proof. exact (@C94_unlucky_forger_solves_proof Pr Laws Tags h Hlen Tags' P O Y names F S c sig rK Hc H HS Hrx HR HK HK0 HY Hfac Hlen' Hses Hfresh Hluck). Qed.
Print Assumptions C94_unlucky_forger_solves.

(** The signature of C89 that was made with both secret keys, by a program that asks for the same three digests of the
    toy hash function and says that the nonce is 9*G. *)
Example C94_unlucky_case : let h := @sha256 Toy in let P := base_mul (tsc 3) in let names := fun _ _ => alg_plain 9 0 in
  verify_single_bytes (aggregated_pubkey reuse_c) alg_other (t_msg (outcome h con_forger)) = Ok tt /\
  session_of P alg_session /\ describes h P con_open con_end alg_session /\
  ended [con_open] (outcome h con_forger) = [(con_open, con_end)] /\
  bytes_eqb (firstn 32 alg_other) (t_rx (outcome h con_forger)) = true /\
  (forall R, pt_lift (firstn 32 alg_other) = Some R -> stands P [alg_session] (alg_plain 9 0) R) /\
  (forall K, In K (pubkeys reuse_c) -> stands P [alg_session] (alg_keys K) (pval K)) /\
  fresh [con_open] con_target con_forger h = true /\ lucky [con_open] con_target names con_forger h = false.
Proof.
  cbv zeta. split; [vm_compute; reflexivity|]. split; [exact alg_session_ok|]. split; [exact con_describes|]. split; [reflexivity|].
  split; [vm_compute; reflexivity|].
  split; [intros R H; vm_compute in H; injection H as <-; apply alg_stands; vm_compute; reflexivity|].
  split; [exact alg_keys_stand|]. split; vm_compute; reflexivity.
Qed.
