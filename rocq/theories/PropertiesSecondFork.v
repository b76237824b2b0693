(** Forgers that choose the members of the group around the second key: C88. *)
From Coq Require Import String List.
From Verif Require Import Bytes BytesFacts Prims PrimsFacts TaggedHashes Errors SpecTags SpecBIP327
  KeyAgg Nonces Signature Signing SigAgg Bip340 SpecCtx SpecView SpecExtract SpecFork Toy ToyData ToyFork.
Import ListNotations.
Open Scope list_scope.
Open Scope Z_scope.
From Verif Require Import ProofsSecondFork.

(** C88.  The second key of a list has the coefficient 1, whatever the digests are, so C87 does not
    cover it.  Take a program as in C87, and let it succeed when a given point P is the second key of its
    list, the signature verifies for the tweaked aggregated key, and it has asked for the coefficients
    of all the other keys and for the challenge.  Let the digests be the encodings of the integers
    below n.  If it succeeds in acc of the n^k worlds, then it is forked at its challenge in B ways, where
    n * acc^2 <= q * n^k * (B + acc), and when all coefficients of its list are multiplied by a further factor from
    1 to n - 1, it is forked again in C ways, where (n - 1) * B^2 <= q * n^(k+1) * (C + B). *)
Theorem C88_second_key_forking {Pr : prims} {Laws : prims_ok Pr} (P : point Pr) (F : asker (group_forgery Pr)) (inputs : list bytes) (q : nat) (HF : asks_within inputs residues (fun _ => True) q F) :
  let W := worlds inputs residues in
  let N := Z.to_nat n_ in
  let acc := count (fun w => match second_forged P F w with Some _ => true | None => false end) W in
  let B := count (fun wd => match second_forks P F (fst wd) (snd wd) with Some _ => true | None => false end) (list_prod W residues) in
  let C := count (fun wdg => second_forks_twice P F (fst (fst wdg)) (snd (fst wdg)) (snd wdg)) (list_prod (list_prod W residues) factors) in
  (N * (acc * acc) <= q * (N ^ length inputs * (B + acc)) /\
   (N - 1) * (B * B) <= q * (N ^ (length inputs + 1) * (C + B)))%nat.
Proof. exact (@C88_second_key_forking_proof Pr Laws P F inputs q HF). Qed.
Print Assumptions C88_second_key_forking.

(** On the toy curve, with its 31 digests, a forger for the keys 5*G and 3*G and an x-only tweak that asks for
    the coefficient of 5*G, and when that is 6 or 30 for the challenge: it succeeds in worlds with these
    coefficients and in no others. *)
Example C88_forking_case :
  let P := tpt 3 in
  asks_within toy_second_inputs (@residues Toy) (fun _ => True) 2 toy_second_forger /\
  length (@residues Toy) = 31%nat /\ length (@factors Toy) = 30%nat /\
  map (fun a => @second_forged Toy P toy_second_forger (toy_second_world a)) [5; 6; 7; 30] = [None; Some (0, 1)%nat; None; Some (0, 1)%nat].
Proof.
  cbv zeta. split; [|repeat split; vm_compute; reflexivity]. split; [left; reflexivity|]. intros a Ha.
  change (@residues Toy) with (map (fun i => be_enc 32 (Z.of_nat i)) (seq 0 31)) in Ha.
  apply in_map_iff in Ha as (i & <- & Hi).
  do 31 (destruct Hi as [<- | Hi]; [vm_compute; solve [exact I | split; [tauto | intros; exact I]]|]). destruct Hi.
Qed.

(** C88.  After such a double fork the two lists of keys have the same digest, and if they are
    the same list, the secret key of P is at hand: it is the one solution of a linear equation
    modulo n, made of the four signatures, the digests, the tweaks and the factor. *)
Theorem C88_second_fork_gives_secret {Pr : prims} {Laws : prims_ok Pr} {Tags : tags_ok Pr} (P : point Pr) (F : asker (group_forgery Pr)) (inputs : list bytes) (q : nat) (w : list (bytes * bytes)) (d : bytes) (g : Z) (HF : asks_within inputs residues (fun _ => True) q F) (Hw : In w (worlds inputs residues)) (Hd : In d residues) (Hg : In g factors) (Hfork : second_forks_twice P F w d g = true) :
  let w' := scale (list_digest F w) g w in
  let keys := fun w => g_keys (outcome (hash_in w) F) in
  let weight := fork_D F w d * fork_D F w' d * (copies P (keys w) * (g - 1)) in
  let r := g * (fork_D F w' d * fork_Y F w d) - fork_D F w d * fork_Y F w' d in
  hash_in w (list_input (keys w)) = hash_in w (list_input (keys w')) /\
  (keys w = keys w' -> copies P (keys w) mod n_ <> 0 ->
   weight mod n_ <> 0 /\ forall x, (weight * x) mod n_ = r mod n_ <-> point_mul pt_G x = pval P).
Proof. exact (@C88_second_fork_gives_secret_proof Pr Laws Tags P F inputs q w d g HF Hw Hd Hg Hfork). Qed.
Print Assumptions C88_second_fork_gives_secret.

(** A double fork of that forger, with the factor 5: the equation for the secret of 3*G has the solution 3. *)
Example C88_secret_case :
  let P := tpt 3 in let F := toy_second_forger in
  let w := toy_second_world 6 in
  let d := be_enc 32 9 in let g := 5 in
  let w' := scale (@list_digest Toy F w) g w in
  let keys := g_keys (outcome (@hash_in Toy w) F) in
  let weight := fork_D (Pr := Toy) F w d * fork_D F w' d * (copies P keys * (g - 1)) in
  let r := g * (fork_D (Pr := Toy) F w' d * fork_Y F w d) - fork_D (Pr := Toy) F w d * fork_Y F w' d in
  @second_forks_twice Toy P F w d g = true /\
  (copies P keys mod 31, map (fun x => Z.eqb ((weight * x) mod 31) (r mod 31)) [2; 3; 4]) = (1, [false; true; false]).
Proof. cbv zeta. split; vm_compute; reflexivity. Qed.
