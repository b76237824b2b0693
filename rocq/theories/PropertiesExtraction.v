(** What the aggregated secret key, or signatures under the aggregated key, say about the keys
    of single members: C73. *)
From Coq Require Import String List.
From Verif Require Import Bytes BytesFacts Prims PrimsFacts TaggedHashes Errors SpecTags SpecBIP327
  KeyAgg Nonces Signature Signing SigAgg Bip340 SpecCtx SpecView SpecExtract Toy ToyData ToyExtract.
Import ListNotations.
Open Scope list_scope.
Open Scope Z_scope.
From Verif Require Import ProofsExtraction.

(** C73.  Whoever knows the aggregated secret key and the secret keys of all members other than
    P can compute that of P: it solves a linear equation, and it is the only solution unless
    the coefficient of P, times the number of its copies, is zero modulo n. *)
Theorem C73_missing_key {Pr : prims} {Laws : prims_ok Pr} {Tags : tags_ok Pr} (c : key_agg_ctx Pr) (P : point Pr) (d : Z) (sk : point Pr -> Z) (Hc : ctx_reachable c) (HP : In P (pubkeys c)) (Hd : point_mul pt_G d = pval (aggregated_pubkey c)) (Hsk : forall K, In K (pubkeys c) -> K <> P -> point_mul pt_G (sk K) = pval K) :
  let pks := pubkeys c in
  let w := copies P pks * coeff_in pks P in
  let r := gacc_of (parity_acc c) * (d - fz (tweak_acc c)) - others P pks (fun K => coeff_in pks K * sk K) in
  (forall x, point_mul pt_G x = pval P -> (w * x) mod n_ = r mod n_) /\
  (w mod n_ <> 0 -> forall x, (w * x) mod n_ = r mod n_ -> point_mul pt_G x = pval P).
Proof. exact (@C73_missing_key_proof Pr Laws Tags c P d sk Hc HP Hd Hsk). Qed.
Print Assumptions C73_missing_key.

(** The second member of the toy group, whose secret key is 5: the only solution is 5. *)
Example C73_missing_case :
  match aggregated_seckey toy_c toy_sks with
  | Ok d =>
      let P := tpt 5 in let pks := pubkeys toy_c in
      let w := copies P pks * coeff_in pks P in
      let r := gacc_of (parity_acc toy_c) * (fz d - fz (tweak_acc toy_c)) - others P pks (fun K => coeff_in pks K * 3) in
      existsb (point_eqb P) pks && Nat.eqb (length pks) 3 && forallb (fun K => point_eqb K P || point_eqb K (tpt 3)) pks
      && negb (w mod 31 =? 0)
      && match filter (fun x => (w * x) mod 31 =? r mod 31) (map Z.of_nat (seq 0 31)) with [x] => x =? 5 | _ => false end
  | _ => false end = true.
Proof. vm_compute. reflexivity. Qed.

(** Two valid signatures under the aggregated key with one nonce, from any source, and the
    secret keys of all members other than P give that of P in the same way. *)
Theorem C73_two_signatures {Pr : prims} {Laws : prims_ok Pr} {Tags : tags_ok Pr} (c : key_agg_ctx Pr) (P : point Pr) (sk : point Pr -> Z) (sig sig' : bytes) (msg msg' : bytes) (Hc : ctx_reachable c) (HP : In P (pubkeys c)) (Hsk : forall K, In K (pubkeys c) -> K <> P -> point_mul pt_G (sk K) = pval K) (H : verify_single_bytes (aggregated_pubkey c) sig msg = Ok tt) (H' : verify_single_bytes (aggregated_pubkey c) sig' msg' = Ok tt) (HR : firstn 32 sig = firstn 32 sig') :
  let pks := pubkeys c in
  let Q := pval (aggregated_pubkey c) in
  let e := fun m => int_from_bytes (tagged_hash "BIP0340/challenge" (firstn 32 sig ++ xbytes Q ++ m)) mod n_ in
  let D := e msg - e msg' in
  let ds := (if has_even_y Q then 1 else -1) * (int_from_bytes (skipn 32 sig) - int_from_bytes (skipn 32 sig')) in
  let w := D * (copies P pks * coeff_in pks P) in
  let r := gacc_of (parity_acc c) * (ds - D * fz (tweak_acc c)) - D * others P pks (fun K => coeff_in pks K * sk K) in
  (forall x, point_mul pt_G x = pval P -> (w * x) mod n_ = r mod n_) /\
  (w mod n_ <> 0 -> forall x, (w * x) mod n_ = r mod n_ -> point_mul pt_G x = pval P).
Proof. exact (@C73_two_signatures_proof Pr Laws Tags c P sk sig sig' msg msg' Hc HP Hsk H H' HR). Qed.
Print Assumptions C73_two_signatures.

Example C73_signatures_case :
  match aggregated_seckey toy_c toy_sks with
  | Ok d =>
      let P := tpt 5 in let pks := pubkeys toy_c in let Q := aggregated_pubkey toy_c in
      let sig := match sign_solo d [x05] (repeat x09 32) with Ok l => lifted_to_bytes l | _ => [] end in
      let rx := firstn 32 sig in
      let s' := match filter (fun s => is_ok (verify_single_bytes Q (rx ++ be_enc 32 s) [x06])) (map Z.of_nat (seq 0 31)) with
                | s :: _ => s | [] => 0 end in
      let e := fun m => int_from_bytes (tagged_hash "BIP0340/challenge" (rx ++ xbytes Q ++ m)) mod 31 in
      let D := e [x05] - e [x06] in
      let ds := (if has_even_y Q then 1 else -1) * (int_from_bytes (skipn 32 sig) - s') in
      let w := D * (copies P pks * coeff_in pks P) in
      let r := gacc_of (parity_acc toy_c) * (ds - D * fz (tweak_acc toy_c)) - D * others P pks (fun K => coeff_in pks K * 3) in
      is_ok (verify_single_bytes Q sig [x05]) && is_ok (verify_single_bytes Q (rx ++ be_enc 32 s') [x06])
      && negb (w mod 31 =? 0)
      && match filter (fun x => (w * x) mod 31 =? r mod 31) (map Z.of_nat (seq 0 31)) with [x] => x =? 5 | _ => false end
  | _ => false end = true.
Proof. vm_compute. reflexivity. Qed.

(** Rewinding.  [h i j] is the hash function of a run: all four give tagged hashes the same tags.
    The runs with the same [i] agree on the coefficients of all members, the others on those of
    all members but P. *)

(** C73.  The extraction behind MuSig's security proof: two pairs of valid signatures under the
    aggregated key of one list of keys, each pair with one nonce and two challenges, where the
    two pairs were made with different coefficients for P and equal ones for everyone else, give
    the secret key of P.  Nobody's key is used.  More generally the coefficients of everyone else
    may be multiplied by some [g]: this serves the second key of the list, whose coefficient
    is always 1. *)
Theorem C73_rewinding {Pr : prims} {Laws : prims_ok Pr} (h : bool -> bool -> bytes -> bytes) (Hlen : forall i j m, length (h i j m) = 32%nat) (Htags : forall i j, tags_ok (with_hash Pr (h i j))) (pks : list (point Pr)) (P : point Pr) (HP : In P pks) (c : forall i j, key_agg_ctx (with_hash Pr (h i j))) (Hc : forall i j, @key_agg_new (with_hash Pr (h i j)) (map (rehash (h i j)) pks) = Ok (c i j)) (A : bool -> point Pr -> Z) (HA : forall i j K, In K pks -> @coeff_in (with_hash Pr (h i j)) (map (rehash (h i j)) pks) (rehash (h i j) K) = A i K) (g : Z) (Hothers : forall K, In K pks -> K <> P -> A true K mod n_ = (g * A false K) mod n_) (sig msg : bool -> bool -> bytes) (Hsig : forall i j, @verify_single_bytes (with_hash Pr (h i j)) (aggregated_pubkey (c i j)) (sig i j) (msg i j) = Ok tt) (Hnonce : forall i, firstn 32 (sig i true) = firstn 32 (sig i false)) :
  let e := fun i j => int_from_bytes (@tagged_hash (with_hash Pr (h i j)) "BIP0340/challenge"
             (firstn 32 (sig i j) ++ @xbytes Pr (pval (aggregated_pubkey (c i j))) ++ msg i j)) mod n_ in
  let s := fun i j => int_from_bytes (skipn 32 (sig i j)) in
  let D := fun i => e i true - e i false in
  let S := fun i => (if @has_even_y Pr (pval (aggregated_pubkey (c i true))) then 1 else -1) * (s i true - s i false) in
  let w := D true * D false * (copies P pks * (A true P - g * A false P)) in
  let r := D false * S true - g * D true * S false in
  (forall x, point_mul pt_G x = pval P -> (w * x) mod n_ = r mod n_) /\
  (w mod n_ <> 0 -> forall x, (w * x) mod n_ = r mod n_ -> point_mul pt_G x = pval P).
Proof. exact (@C73_rewinding_proof Pr Laws h Hlen Htags pks P HP c Hc A HA g Hothers sig msg Hsig Hnonce). Qed.
Print Assumptions C73_rewinding.

(** Four toy runs with the keys 5, 3 and 7: the coefficients of the first key and the challenges
    depend on the run, and the one solution of the equation is 5. *)
Example C73_rewinding_case :
  match runs_with run_hash [tpt 5; tpt 3; tpt 7] [x05] with
  | Some f => runs_give f 5 (copies (tpt 5) [tpt 5; tpt 3; tpt 7]) 0 [1; 2]%nat 1
  | None => false end = true.
Proof. vm_compute. reflexivity. Qed.
(** The second key, 3: its coefficient is 1 in all runs and those of the others are doubled. *)
Example C73_rewinding_second_key :
  match runs_with run_hash2 [tpt 5; tpt 3; tpt 7] [x05] with
  | Some f => runs_give f 3 (copies (tpt 3) [tpt 5; tpt 3; tpt 7]) 1 [0; 2]%nat 2
      && forallb (fun i => nth 1 (run_coeffs (f i true)) 0 =? 1) [true; false]
  | None => false end = true.
Proof. vm_compute. reflexivity. Qed.
(** These hash functions are as the theorem demands. *)
Example C73_rewinding_hashes i j :
  (forall m, length (run_hash i j m) = 32%nat) /\ tags_ok (with_hash Toy (run_hash i j)) /\
  (forall m, length (run_hash2 i j m) = 32%nat) /\ tags_ok (with_hash Toy (run_hash2 i j)).
Proof. split; [apply run_hash_len|]. split; [apply run_hash_tags|]. split; [apply run_hash2_len | apply run_hash2_tags]. Qed.
