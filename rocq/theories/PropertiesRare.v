(** How many values make a step fail: C79. *)
From Coq Require Import String List.
From Verif Require Import Bytes BytesFacts Prims PrimsFacts TaggedHashes Errors SpecTags SpecBIP327
  KeyAgg Nonces Signature Signing SigAgg Bip340 SpecCtx SpecView SpecExtract Toy ToyData.
Import ListNotations.
Open Scope list_scope.
Open Scope Z_scope.
From Verif Require Import ProofsRare.



(** C79.  Every key aggregation context refuses exactly one plain and exactly one x-only tweak:
    the negation of the secret key of the aggregated key, or of its even form.  So only someone
    who could sign alone can find it.  A taproot tweak is refused exactly when its digest is
    zero, is not below the group order or is that one number. *)
Theorem C79_tweaks {Pr : prims} {Laws : prims_ok Pr} {Tags : tags_ok Pr} (c : key_agg_ctx Pr) :
  let Q := aggregated_pubkey c in
  let even := if has_even_y Q then pval Q else pt_neg Q in
  exists plain xonly : Z, 1 <= plain < n_ /\ 1 <= xonly < n_ /\
    point_mul pt_G (n_ - plain) = Q /\ point_mul pt_G (n_ - xonly) = even /\
    (forall t : scalar Pr, with_plain_tweak c t = Err TweakError <-> fz t = plain) /\
    (forall t : scalar Pr, with_xonly_tweak c t = Err TweakError <-> fz t = xonly) /\
    (forall root, let d := int_from_bytes (tagged_hash "TapTweak" (xbytes Q ++ root)) in
       with_taproot_tweak c root = Err TweakError <-> d = 0 \/ n_ <= d \/ d = xonly).
Proof. exact (@C79_tweaks_proof Pr Laws Tags c). Qed.
Print Assumptions C79_tweaks.

(** The aggregated key of [toy_c] is 19*G, with odd y: the even form is 12*G. *)
Example C79_tweaks_case :
  pt_eqb (point_mul pt_G 19) (aggregated_pubkey toy_c) = true /\ has_even_y (aggregated_pubkey toy_c) = false /\
  forallb (fun k => Bool.eqb (is_ok (with_plain_tweak toy_c (tsc k))) (negb (Pos.eqb k 12)) &&
                    Bool.eqb (is_ok (with_xonly_tweak toy_c (tsc k))) (negb (Pos.eqb k 19)))
          (map Pos.of_nat (seq 1 30)) = true.
Proof. vm_compute. auto. Qed.



(** An adaptor signature can be adapted with every secret but one, the negation of the logarithm
    of its nonce. *)
Theorem C79_adapt {Pr : prims} {Laws : prims_ok Pr} (sg : adaptor_sig Pr) :
  exists bad : Z, 0 <= bad < n_ /\ point_mul pt_G (- bad) = a_R sg /\
    forall t : mscalar Pr, adapt sg t = None <-> fz t = bad.
Proof. exact (@C79_adapt_proof Pr Laws sg). Qed.
Print Assumptions C79_adapt.

Example C79_adapt_case :
  let sg := adaptor_new (gmul (tsc 4 : mscalar Toy)) (tsc 9) in
  filter (fun k => match adapt sg (of_Z 31 (Z.of_nat k)) with None => true | Some _ => false end) (seq 0 31) = [27%nat].
Proof. vm_compute. reflexivity. Qed.



(** src/nonces.rs:633-643: the aggregated nonce R1, R2 is replaced by the generator for exactly
    one nonce coefficient, if R2 is finite, and the final nonce is the generator for exactly one
    other.  If R2 is infinite, the coefficient does not matter. *)
Theorem C79_final_nonce {Pr : prims} {Laws : prims_ok Pr} (an : agg_nonce Pr) :
  (aR2 an <> pt_O -> exists bad one : Z, 0 <= bad < n_ /\ 0 <= one < n_ /\ bad <> one /\ forall b : mscalar Pr,
     (pt_add (aR1 an) (point_mul (aR2 an) (fz b)) = pt_O <-> fz b = bad) /\
     (pval (final_nonce an b) = pt_G <-> fz b = bad \/ fz b = one) /\
     (fz b <> bad -> pval (final_nonce an b) = pt_add (aR1 an) (point_mul (aR2 an) (fz b)))) /\
  (aR2 an = pt_O -> forall b : mscalar Pr,
     pval (final_nonce an b) = (if pt_eqb (aR1 an) pt_O then pt_G else aR1 an)).
Proof. exact (@C79_final_nonce_proof Pr Laws an). Qed.
Print Assumptions C79_final_nonce.

(** The toy session's aggregated nonce: of the 31 coefficients, the first is replaced and the
    second gives the generator. *)
Example C79_nonce_case :
  pt_eqb (aR2 toy_an) pt_O = false /\
  length (filter (fun k => pt_eqb (pt_add (aR1 toy_an) (point_mul (aR2 toy_an) (Z.of_nat k))) pt_O) (seq 0 31)) = 1%nat /\
  length (filter (fun k => pt_eqb (final_nonce toy_an (of_Z 31 (Z.of_nat k))) pt_G) (seq 0 31)) = 2%nat.
Proof. vm_compute. auto. Qed.



(** Take any list of keys, a member P that is not the second key of the list (whose coefficient
    is always 1), and let everything about the hash function be given but the digest that makes
    P's coefficient.  Aggregation fails exactly for the digests of one residue class modulo n.
    (The number of copies of P is not a multiple of n when n is larger than 2^32.) *)
Theorem C79_key_aggregation {Pr : prims} {Laws : prims_ok Pr} {Tags : tags_ok Pr} (pks : list (point Pr)) (P : point Pr) (Hlen : zlen pks <= 4294967295%Z) (HP : In P pks) (Hsnd : get_second_key (map cbytes (map (@pval Pr) pks)) <> cbytes P) (Hcop : copies P pks mod n_ <> 0) :
  let L := tagged_hash "KeyAgg list" (concat (map cbytes (map (@pval Pr) pks))) in
  let input := sha256 (ascii_bytes "KeyAgg coefficient") ++ sha256 (ascii_bytes "KeyAgg coefficient") ++ L ++ cbytes P in
  let h := fun digest m => if bytes_eqb m input then digest else sha256 m in
  exists bad : Z, 0 <= bad < n_ /\ forall digest, length digest = 32%nat ->
    (@key_agg_new (with_hash Pr (h digest)) (map (rehash (h digest)) pks) = Err KeyAggError <-> int_from_bytes digest mod n_ = bad) /\
    @key_agg_new (with_hash Pr (h digest)) (map (rehash (h digest)) pks) <> Panic.
Proof. exact (@C79_key_aggregation_proof Pr Laws Tags pks P Hlen HP Hsnd Hcop). Qed.
Print Assumptions C79_key_aggregation.

(** The keys 3*G, 5*G, 3*G and P = 3*G: of the 31 residues of its digest, one makes aggregation
    fail. *)
Example C79_aggregation_case :
  let pks := [tpt 3; tpt 5; tpt 3] in let P := tpt 3 in
  let L := tagged_hash "KeyAgg list" (concat (map cbytes (map (@pval Toy) pks))) in
  let input := @sha256 Toy (ascii_bytes "KeyAgg coefficient") ++ @sha256 Toy (ascii_bytes "KeyAgg coefficient") ++ L ++ cbytes P in
  let h := fun digest m => if bytes_eqb m input then digest else @sha256 Toy m in
  existsb (point_eqb P) pks && negb (bytes_eqb (get_second_key (map cbytes (map (@pval Toy) pks))) (cbytes P)) && negb (copies P pks mod 31 =? 0) &&
  (Nat.eqb (length (filter (fun k => negb (is_ok (@key_agg_new (with_hash Toy (h (be_enc 32 (Z.of_nat k)))) (map (rehash (h (be_enc 32 (Z.of_nat k)))) pks))))
     (seq 0 31))) 1) = true.
Proof. vm_compute. reflexivity. Qed.
