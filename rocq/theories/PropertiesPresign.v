(** What a pre-signature that verifies is worth: C93. *)
From Coq Require Import String List.
From Verif Require Import Bytes BytesFacts Prims PrimsFacts TaggedHashes Errors SpecTags SpecBIP327
  KeyAgg Nonces Signature Signing SigAgg Bip340 SpecCtx SpecView SpecExtract SpecFork SpecPresign Toy ToyData ToyFork ToyPresign.
Import ListNotations.
Open Scope list_scope.
Open Scope Z_scope.
From Verif Require Import ProofsPresign.

(** C93.  Whoever may choose the adaptor point needs no secret to make a pre-signature that verifies.  For any
    public key, message, s and adapted nonce A, there is exactly one R with which (R, s) verifies for the
    adaptor point A - R, and it is made of public values: +-(s*G - e*P), e being the challenge of A and the sign the parity of A.  So
    a pre-signature says nothing about the key's owner unless the adaptor point is fixed by somebody else. *)
Theorem C93_presignatures_without_key {Pr : prims} {Laws : prims_ok Pr} {Tags : tags_ok Pr} (pk : point Pr) (msg : bytes) (A : pt) (s : mscalar Pr) :
  let P := if has_even_y pk then pval pk else pt_neg pk in
  let e := int_from_bytes (tagged_hash "BIP0340/challenge" (xbytes A ++ xbytes pk ++ msg)) mod n_ in
  let V := pt_add (point_mul pt_G (fz s)) (pt_neg (point_mul P e)) in
  let R0 := if has_even_y A then V else pt_neg V in
  forall R, verify_single_adaptor pk (adaptor_new R s) msg (pt_add A (pt_neg R)) = Ok tt <-> R = R0.
Proof. exact (@C93_presignatures_without_key_proof Pr Laws Tags pk msg A s). Qed.
Print Assumptions C93_presignatures_without_key.

(** With the key 5*G, s = 20 and A = 13*G. *)
Example C93_without_key_case :
  let A := pval (tpt 13) in let s : mscalar Toy := tsc 20 in
  let P := if @has_even_y Toy (pval (tpt 5)) then pval (tpt 5) else pt_neg (pval (tpt 5)) in
  let e := int_from_bytes (tagged_hash "BIP0340/challenge" (@xbytes Toy A ++ @xbytes Toy (pval (tpt 5)) ++ toy_msg)) mod 31 in
  let V := pt_add (point_mul pt_G (fz s)) (pt_neg (point_mul P e)) in
  let R := if @has_even_y Toy A then V else pt_neg V in
  is_ok (verify_single_adaptor (tpt 5) (adaptor_new R s) toy_msg (pt_add A (pt_neg R))) && negb (pt_eqb (pt_add A (pt_neg R)) pt_O) = true.
Proof. vm_compute. reflexivity. Qed.

(** C93.  When the adaptor point T is given beforehand, a forger can be forked as in C86: with N digests, k inputs, q
    questions, at most c digests in a residue class, acc the worlds in which the program's pre-signature verifies for T with a finite adapted
    nonce, N * acc^2 <= (q+1) * N^k * (forks + acc * c). *)
Theorem C93_forking {Pr : prims} (Q : point Pr) (T : pt) (F : asker (presigned Pr)) (inputs digests : list bytes) (q c : nat) (HS : NoDup digests) (Hc : forall d, In d digests -> (count (same_residue d) digests <= c)%nat) (HF : asks_within inputs digests (fun r => In (pre_challenge Q T r) inputs) q F) :
  let W := worlds inputs digests in
  let N := length digests in
  let acc := count (pre_forged Q T F) W in
  let forking := count (fun wd => pre_forks Q T F (fst wd) (snd wd)) (list_prod W digests) in
  (N * (acc * acc) <= (q + 1) * (N ^ length inputs * (forking + acc * c)))%nat.
Proof. exact (@C93_forking_proof Pr Q T F inputs digests q c HS Hc HF). Qed.
Print Assumptions C93_forking.

(** On the toy curve, with the digests 0 to 3, a forger for 5*G and the adaptor point 4*G: it succeeds in 3 of 4 worlds and is forked in 6 of 16 ways. *)
Example C93_forking_case :
  let Q := tpt 5 in let digests := toy_digests 4 in let inputs := [pre_question] in
  asks_within inputs digests (fun r => In (@pre_challenge Toy Q pre_T r) inputs) 1 pre_forger /\
  forallb (fun d => Nat.eqb (count (@same_residue Toy d) digests) 1) digests = true /\
  (count (@pre_forged Toy Q pre_T pre_forger) (worlds inputs digests),
   count (fun wd => @pre_forks Toy Q pre_T pre_forger (fst wd) (snd wd)) (list_prod (worlds inputs digests) digests)) = (3, 6)%nat.
Proof.
  cbv zeta. split; [|split; vm_compute; reflexivity]. split; [left; reflexivity|]. intros d Hd. left.
  destruct Hd as [<- | [<- | [<- | [<- | []]]]]; vm_compute; reflexivity.
Qed.

(** C93.  Each fork gives one linear equation between the secret x of the key and the secret t of the adaptor point, in which the
    coefficient of x is not 0: whoever knows t has x.  If the two adapted nonces have the same parity, t does not
    occur in it, and the fork gives x by itself. *)
Theorem C93_fork_gives_secret {Pr : prims} {Laws : prims_ok Pr} {Tags : tags_ok Pr} (Q : point Pr) (T : pt) (F : asker (presigned Pr)) (inputs digests : list bytes) (q : nat) (w : list (bytes * bytes)) (d : bytes) (t : Z) (HS : forall d, In d digests -> length d = 32%nat) (HF : asks_within inputs digests (fun r => In (pre_challenge Q T r) inputs) q F) (Hw : In w (worlds inputs digests)) (Hd : In d digests) (Hfork : pre_forks Q T F w d = true) (Ht : point_mul pt_G t = T) :
  let m := pre_challenge_in Q T F w in
  let r := outcome (hash_in w) F in
  let r' := outcome (hash_in (put m d w)) F in
  let D := int_from_bytes (hash_in w m) - int_from_bytes d in
  let Y := (if has_even_y Q then 1 else -1) * (fz (q_s r) - fz (q_s r') + (nonce_sign T r - nonce_sign T r') * t) in
  D mod n_ <> 0 /\ forall x, (D * x) mod n_ = Y mod n_ <-> point_mul pt_G x = pval Q.
Proof. exact (@C93_fork_gives_secret_proof Pr Laws Tags Q T F inputs digests q w d t HS HF Hw Hd Hfork Ht). Qed.
Print Assumptions C93_fork_gives_secret.

(** The forks of that forger at the digests 1 and 0, with adapted nonces of the same parity, and at 1 and 3, with opposite ones: with t = 4 both
    equations have the solution 5; with another t only the first. *)
Example C93_secret_case :
  let Q := tpt 5 in let w := [(pre_question, be_enc 32 1)] in
  let r := fun w => outcome (@hash_in Toy w) pre_forger in
  let holds := fun d t x => let w' := put pre_question (be_enc 32 d) w in
    ((1 - d) * x) mod 31 =? ((if @has_even_y Toy (pval Q) then 1 else -1) * (fz (q_s (r w)) - fz (q_s (r w')) + (nonce_sign pre_T (r w) - nonce_sign pre_T (r w')) * t)) mod 31 in
  @pre_forks Toy Q pre_T pre_forger w (be_enc 32 0) = true /\ @pre_forks Toy Q pre_T pre_forger w (be_enc 32 3) = true /\
  map (holds 0 4) [4; 5; 6] = [false; true; false] /\ map (holds 3 4) [4; 5; 6] = [false; true; false] /\
  map (holds 0 9) [4; 5; 6] = [false; true; false] /\ map (holds 3 9) [4; 5; 6] = [false; false; false].
Proof. cbv zeta. repeat split; vm_compute; reflexivity. Qed.

(** C93.  The case left out above, an infinite adapted nonce, needs no fork: such a pre-signature is s = -t + e*x or s = -t - e*x, so
    with a challenge other than 0 whoever knows t has x from it. *)
Theorem C93_infinite_nonce {Pr : prims} {Laws : prims_ok Pr} {Tags : tags_ok Pr} (pk : point Pr) (sg : adaptor_sig Pr) (msg : bytes) (T : pt) (t : Z) (H : verify_single_adaptor pk sg msg T = Ok tt) (HA : pt_add (a_R sg) T = pt_O) (Ht : point_mul pt_G t = T) :
  let e := int_from_bytes (tagged_hash "BIP0340/challenge" (xbytes (pt_add (a_R sg) T) ++ xbytes pk ++ msg)) in
  let sign := if has_even_y (pt_add (a_R sg) T) then 1 else -1 in
  let g := if has_even_y pk then 1 else -1 in
  e mod n_ <> 0 ->
  forall x, (e * x) mod n_ = (g * (fz (a_s sg) + sign * t)) mod n_ <-> point_mul pt_G x = pval pk.
Proof. exact (@C93_infinite_nonce_proof Pr Laws Tags pk sg msg T t H HA Ht). Qed.
Print Assumptions C93_infinite_nonce.

(** The key is 5*G, the adaptor point 4*G, and R the opposite point. *)
Example C93_infinite_case :
  existsb (fun k => is_ok (verify_single_adaptor (tpt 5) (adaptor_new (pt_neg pre_T) (of_Z 31 k : mscalar Toy)) toy_msg pre_T)) (map Z.of_nat (seq 0 31)) = true /\
  pt_eqb (pt_add (pt_neg pre_T) pre_T) pt_O = true /\
  int_from_bytes (tagged_hash "BIP0340/challenge" (@xbytes Toy pt_O ++ @xbytes Toy (pval (tpt 5)) ++ toy_msg)) mod 31 <> 0.
Proof. split; [vm_compute; reflexivity|]. split; [vm_compute; reflexivity|]. vm_compute. discriminate. Qed.
