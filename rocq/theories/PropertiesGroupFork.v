(** Forgers that choose the other members of the group: C87. *)
From Coq Require Import String List.
From Verif Require Import Bytes BytesFacts Prims PrimsFacts TaggedHashes Errors SpecTags SpecBIP327
  KeyAgg Nonces Signature Signing SigAgg Bip340 SpecCtx SpecView SpecExtract SpecFork Toy ToyData ToyFork.
Import ListNotations.
Open Scope list_scope.
Open Scope Z_scope.
From Verif Require Import ProofsGroupFork.

(** C87.  Take any program that asks for digests and ends with a list of keys, tweaks for their
    aggregated key, a signature and a message.  It succeeds when a given point P is in the list, not as
    its second key, the signature verifies for the tweaked aggregated key, and it has asked for the
    coefficient of P and for the challenge.  Among all ways to assign N digests to k inputs,
    with at most q questions and at most c digests in a residue class modulo n: if it succeeds in acc of
    them, then with one further digest it is forked at its challenge in B ways where
    N * acc^2 <= q * N^k * (B + acc * c), and with a second further digest it is forked
    again at the coefficient of P in C ways where N * B^2 <= q * N^(k+1) * (C + B * c).
    As fractions, leaving out c/N, f becomes f^2/q and then f^4/q^3. *)
Theorem C87_double_forking {Pr : prims} (P : point Pr) (F : asker (group_forgery Pr)) (inputs digests : list bytes) (q c : nat) (HS : NoDup digests) (Hc : forall d, In d digests -> (count (same_residue d) digests <= c)%nat) (HF : asks_within inputs digests (fun _ => True) q F) :
  let W := worlds inputs digests in
  let N := length digests in
  let acc := count (fun w => match group_forged P F w with Some _ => true | None => false end) W in
  let B := count (fun wd => match group_forks P F (fst wd) (snd wd) with Some _ => true | None => false end) (list_prod W digests) in
  let C := count (fun wda => group_forks_twice P F (fst (fst wda)) (snd (fst wda)) (snd wda)) (list_prod (list_prod W digests) digests) in
  (N * (acc * acc) <= q * (N ^ length inputs * (B + acc * c)) /\
   N * (B * B) <= q * (N ^ (length inputs + 1) * (C + B * c)))%nat.
Proof. exact (@C87_double_forking_proof Pr P F inputs digests q c HS Hc HF). Qed.
Print Assumptions C87_double_forking.

(** On the toy curve, with two digests, a forger for the keys 3*G and 5*G and an x-only tweak that asks for
    the coefficient of 3*G and for the challenge: it succeeds in all 8 worlds. *)
Example C87_forking_case :
  let P := tpt 3 in let digests := map (be_enc 32) [3; 7] in
  let inputs := toy_coefficient :: map toy_challenge digests in
  asks_within inputs digests (fun _ => True) 2 toy_group_forger /\
  forallb (fun d => Nat.eqb (count (@same_residue Toy d) digests) 1) digests = true /\
  count (fun w => match @group_forged Toy P toy_group_forger w with Some _ => true | None => false end) (worlds inputs digests) = 8%nat.
Proof.
  cbv zeta. split; [|split; vm_compute; reflexivity]. split; [left; reflexivity|]. intros a [<- | [<- | []]].
  - split; [right; left; reflexivity | intros d _; exact I].
  - split; [right; right; left; reflexivity | intros d _; exact I].
Qed.

(** C87.  After such a double fork the two lists of keys have the same digest, and if they are
    the same list, the secret key of P is at hand, whatever the other keys are and whoever chose
    them: it is the one solution of a linear equation modulo n, made of the four signatures,
    the digests and the tweaks. *)
Theorem C87_double_fork_gives_secret {Pr : prims} {Laws : prims_ok Pr} {Tags : tags_ok Pr} (P : point Pr) (F : asker (group_forgery Pr)) (inputs digests : list bytes) (q : nat) (w : list (bytes * bytes)) (d a : bytes) (HS : forall d, In d digests -> length d = 32%nat) (HF : asks_within inputs digests (fun _ => True) q F) (Hw : In w (worlds inputs digests)) (Hd : In d digests) (Ha : In a digests) (Hfork : group_forks_twice P F w d a = true) :
  let m := coefficient_of P F w in
  let w' := put m a w in
  let keys := fun w => g_keys (outcome (hash_in w) F) in
  let weight := fork_D F w d * fork_D F w' d * (copies P (keys w) * (int_from_bytes (hash_in w m) - int_from_bytes a)) in
  let r := fork_D F w' d * fork_Y F w d - fork_D F w d * fork_Y F w' d in
  hash_in w (list_input (keys w)) = hash_in w (list_input (keys w')) /\
  (keys w = keys w' -> copies P (keys w) mod n_ <> 0 ->
   weight mod n_ <> 0 /\ forall x, (weight * x) mod n_ = r mod n_ <-> point_mul pt_G x = pval P).
Proof. exact (@C87_double_fork_gives_secret_proof Pr Laws Tags P F inputs digests q w d a HS HF Hw Hd Ha Hfork). Qed.
Print Assumptions C87_double_fork_gives_secret.

(** A double fork of that forger: the equation for the secret of 3*G has the solution 3. *)
Example C87_secret_case :
  let P := tpt 3 in let digests := map (be_enc 32) [3; 7] in let F := toy_group_forger in
  let w := [(toy_coefficient, be_enc 32 3); (toy_challenge (be_enc 32 3), be_enc 32 3); (toy_challenge (be_enc 32 7), be_enc 32 3)] in
  let d := be_enc 32 7 in let a := be_enc 32 7 in
  let m := toy_coefficient in let w' := put m a w in
  let keys := g_keys (outcome (@hash_in Toy w) F) in
  let weight := fork_D (Pr := Toy) F w d * fork_D F w' d * (copies P keys * (int_from_bytes (@hash_in Toy w m) - int_from_bytes a)) in
  let r := fork_D (Pr := Toy) F w' d * fork_Y F w d - fork_D (Pr := Toy) F w d * fork_Y F w' d in
  @group_forks_twice Toy P F w d a = true /\ @coefficient_of Toy P F w = m /\
  (copies P keys mod 31, map (fun x => Z.eqb ((weight * x) mod 31) (r mod 31)) [2; 3; 4]) = (1, [false; true; false]).
Proof. cbv zeta. split; [|split]; vm_compute; reflexivity. Qed.
