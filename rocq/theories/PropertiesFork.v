(** Forgers that are given the digests: C86. *)
From Coq Require Import String List.
From Verif Require Import Bytes BytesFacts Prims PrimsFacts TaggedHashes Errors SpecTags SpecBIP327
  KeyAgg Nonces Signature Signing SigAgg Bip340 SpecCtx SpecView SpecExtract SpecFork Toy ToyData ToyFork.
Import ListNotations.
Open Scope list_scope.
Open Scope Z_scope.
From Verif Require Import ProofsFork.

(** C86.  Take any program that asks for digests and ends with a signature and a message, as an
    attempt against a given key, and any finite set of digests.  Among all ways to assign these
    digests to the inputs it may ask for, count those in which the signature verifies.  Then
    count the ways, together with one further digest, in which it verifies and verifies again
    when the digest of its challenge is replaced by the further one, with the same question as its
    challenge and another residue modulo n.  With N digests, k inputs, q questions and at most c digests
    in a residue class: N * acc^2 <= (q+1) * N^k * (forks + acc * c).  As fractions,
    a forger that succeeds with frequency f is forked with frequency at least
    f * (f / (q+1) - c/N). *)
Theorem C86_forking {Pr : prims} (Q : point Pr) (F : asker (bytes * bytes)) (inputs digests : list bytes) (q c : nat) (HS : NoDup digests) (Hc : forall d, In d digests -> (count (same_residue d) digests <= c)%nat) (HF : asks_within inputs digests (fun r => In (challenge_input (firstn 32 (fst r)) (xbytes Q) (snd r)) inputs) q F) :
  let W := worlds inputs digests in
  let N := length digests in
  let acc := count (forged Q F) W in
  let forking := count (fun wd => forks Q F (fst wd) (snd wd)) (list_prod W digests) in
  (N * (acc * acc) <= (q + 1) * (N ^ length inputs * (forking + acc * c)))%nat.
Proof. exact (@C86_forking_proof Pr Q F inputs digests q c HS Hc HF). Qed.
Print Assumptions C86_forking.

(** On the toy curve, with the digests 0 to 3, a forger for 5*G that asks for its challenge and fails when
    the residue is 2: it succeeds in 3 of 4 worlds and is forked in 6 of 16 ways. *)
Example C86_forking_case :
  let Q := tpt 5 in let digests := toy_digests 4 in
  let inputs := [@challenge_input Toy toy_rx (@xbytes Toy (pval Q)) toy_msg] in
  asks_within inputs digests (fun r => In (@challenge_input Toy (firstn 32 (fst r)) (@xbytes Toy (pval Q)) (snd r)) inputs) 1 toy_forger /\
  forallb (fun d => Nat.eqb (count (@same_residue Toy d) digests) 1) digests = true /\
  (count (@forged Toy Q toy_forger) (worlds inputs digests),
   count (fun wd => @forks Toy Q toy_forger (fst wd) (snd wd)) (list_prod (worlds inputs digests) digests)) = (3, 6)%nat.
Proof.
  cbv zeta. split; [|split; vm_compute; reflexivity]. split; [left; reflexivity|]. intros d _. left. cbn [asks_within fst snd].
  f_equal.
Qed.

(** C86.  Each such fork hands over the secret key: with the two signatures' last halves s, s' and the
    two digests e, e', it is the one residue x with (e - e') * x = s - s' or, if the key has
    an odd y, with (e - e') * x = s' - s, modulo n. *)
Theorem C86_fork_gives_secret {Pr : prims} {Laws : prims_ok Pr} {Tags : tags_ok Pr} (Q : point Pr) (F : asker (bytes * bytes)) (inputs digests : list bytes) (q : nat) (w : list (bytes * bytes)) (d : bytes) (HS : forall d, In d digests -> length d = 32%nat) (HF : asks_within inputs digests (fun r => In (challenge_input (firstn 32 (fst r)) (xbytes Q) (snd r)) inputs) q F) (Hw : In w (worlds inputs digests)) (Hd : In d digests) (Hfork : forks Q F w d = true) :
  let m := forged_challenge Q F w in
  let s := fun w => int_from_bytes (skipn 32 (fst (outcome (hash_in w) F))) in
  let D := int_from_bytes (hash_in w m) - int_from_bytes d in
  let r := (if has_even_y Q then 1 else -1) * (s w - s (put m d w)) in
  D mod n_ <> 0 /\ forall x, (D * x) mod n_ = r mod n_ <-> point_mul pt_G x = pval Q.
Proof. exact (@C86_fork_gives_secret_proof Pr Laws Tags Q F inputs digests q w d HS HF Hw Hd Hfork). Qed.
Print Assumptions C86_fork_gives_secret.

(** The fork of that forger at the digests 1 and 3: the equation has the solution 5. *)
Example C86_secret_case :
  let Q := tpt 5 in let m := @challenge_input Toy toy_rx (@xbytes Toy (pval Q)) toy_msg in
  let w := [(m, be_enc 32 1)] in let d := be_enc 32 3 in
  let s := fun w => int_from_bytes (skipn 32 (fst (outcome (@hash_in Toy w) toy_forger))) in
  existsb (fun v => bytes_eqb (concat (map snd v)) (be_enc 32 1)) (worlds [m] (toy_digests 4)) = true /\
  @forks Toy Q toy_forger w d = true /\
  map (fun x => Z.eqb (((int_from_bytes (@hash_in Toy w m) - int_from_bytes d) * x) mod 31)
    (((if @has_even_y Toy (pval Q) then 1 else -1) * (s w - s (put m d w))) mod 31)) [4; 5; 6] = [false; true; false].
Proof. cbv zeta. split; [|split]; vm_compute; reflexivity. Qed.
