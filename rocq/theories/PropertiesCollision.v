(** A forger that is forked twice rarely ends with two different lists: C95. *)
From Coq Require Import String List.
From Verif Require Import Bytes BytesFacts Prims PrimsFacts TaggedHashes Errors SpecTags SpecBIP327
  KeyAgg Nonces Signature Signing SigAgg Bip340 SpecCtx SpecView SpecExtract SpecFork SpecCollision Toy ToyData ToyFork ToyCollision.
Import ListNotations.
Open Scope list_scope.
Open Scope Z_scope.
From Verif Require Import ProofsCollision.

(** C95.  C87 forks a program that chooses the members of the group twice, and finds the secret of P if both
    times the program ended with the same list of keys; two lists with one digest were left to collision resistance.  Here they are counted.  Let all
    lists that the program can end with be among the inputs.  Of the C double forks, those where the lists agree are all but at most
    (q+1)(2q+1) N^(k+1) c of the N^(k+2) there are, and each of them gives an equation whose one
    solution is the secret of P.  With C87's bound on C, a program that succeeds
    often enough gives the secret, without an assumption about the hash function. *)
Theorem C95_lists_agree {Pr : prims} {Laws : prims_ok Pr} {Tags : tags_ok Pr} (P : point Pr) (F : asker (group_forgery Pr)) (inputs digests : list bytes) (q c : nat) (HS : NoDup digests) (HS32 : forall d, In d digests -> length d = 32%nat) (Hc : forall d, In d digests -> (count (same_residue d) digests <= c)%nat) (HF : lists_within inputs digests q F) :
  let W := worlds inputs digests in
  let N := length digests in
  let triples := list_prod (list_prod W digests) digests in
  let C := count (fun wda => group_forks_twice P F (fst (fst wda)) (snd (fst wda)) (snd wda)) triples in
  let S := count (fun wda => forks_alike P F (fst (fst wda)) (snd (fst wda)) (snd wda)) triples in
  (N * C <= N * S + (q + 1) * (2 * q + 1) * (N ^ (length inputs + 2) * c))%nat /\
  (forall w d a, In w W -> In d digests -> In a digests -> forks_alike P F w d a = true ->
   let m := coefficient_of P F w in
   let w' := put m a w in
   let weight := fork_D F w d * fork_D F w' d * (copies P (ends_with F w) * (int_from_bytes (hash_in w m) - int_from_bytes a)) in
   let r := fork_D F w' d * fork_Y F w d - fork_D F w d * fork_Y F w' d in
   copies P (ends_with F w) mod n_ <> 0 -> weight mod n_ <> 0 /\ forall x, (weight * x) mod n_ = r mod n_ <-> point_mul pt_G x = pval P).
Proof. exact (@C95_lists_agree_proof Pr Laws Tags P F inputs digests q c HS HS32 Hc HF). Qed.
Print Assumptions C95_lists_agree.

(** A program that asks for the digest of its list, the coefficient of 3*G and the challenge, with all its questions and lists among 5 inputs; a double fork
    of it in which the lists agree. *)
Example C95_lists_case :
  let digests := map (be_enc 32) [3; 7] in let w := map (fun m => (m, be_enc 32 3)) col_inputs in
  lists_within col_inputs digests 3 col_forger /\
  forallb (fun d => Nat.eqb (count (@same_residue Toy d) digests) 1) digests = true /\
  forks_alike (tpt 3) col_forger w (be_enc 32 7) (be_enc 32 7) = true /\ copies (tpt 3) (ends_with col_forger w) mod 31 = 1.
Proof. cbv zeta. split; [exact col_within|]. split; [vm_compute; reflexivity|]. split; vm_compute; reflexivity. Qed.

(** The same when P is the second key of the list (C88), with the residues as digests. *)
Theorem C95_second_lists_agree {Pr : prims} {Laws : prims_ok Pr} {Tags : tags_ok Pr} (P : point Pr) (F : asker (group_forgery Pr)) (inputs : list bytes) (q : nat) (HF : lists_within inputs residues q F) :
  let W := worlds inputs residues in
  let N := Z.to_nat n_ in
  let triples := list_prod (list_prod W residues) factors in
  let C := count (fun wdg => second_forks_twice P F (fst (fst wdg)) (snd (fst wdg)) (snd wdg)) triples in
  let S := count (fun wdg => second_forks_alike P F (fst (fst wdg)) (snd (fst wdg)) (snd wdg)) triples in
  (N * C <= N * S + (q + 1) * (2 * q + 1) * (N ^ (length inputs + 1) * (N - 1)))%nat /\
  (forall w d g, In w W -> In d residues -> In g factors -> second_forks_alike P F w d g = true ->
   let w' := scale (list_digest F w) g w in
   let weight := fork_D F w d * fork_D F w' d * (copies P (ends_with F w) * (g - 1)) in
   let r := g * (fork_D F w' d * fork_Y F w d) - fork_D F w d * fork_Y F w' d in
   copies P (ends_with F w) mod n_ <> 0 -> weight mod n_ <> 0 /\ forall x, (weight * x) mod n_ = r mod n_ <-> point_mul pt_G x = pval P).
Proof. exact (@C95_second_lists_agree_proof Pr Laws Tags P F inputs q HF). Qed.
Print Assumptions C95_second_lists_agree.

(** A program for the keys 5*G and 3*G, with the 31 residues as digests, that asks for the digest of its list first; a double fork of it, with
    the factor 5, in which the lists agree. *)
Example C95_second_case :
  let w := map (fun m => (m, be_enc 32 6)) col_second_inputs in
  lists_within col_second_inputs (@residues Toy) 3 col_second_forger /\
  second_forks_alike (tpt 3) col_second_forger w (be_enc 32 7) 5 = true /\ copies (tpt 3) (ends_with col_second_forger w) mod 31 = 1.
Proof. cbv zeta. split; [exact col_second_within|]. split; vm_compute; reflexivity. Qed.
