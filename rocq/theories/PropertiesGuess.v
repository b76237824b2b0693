(** Values chosen before one digest is known: C81. *)
From Coq Require Import String List.
From Verif Require Import Bytes BytesFacts Prims PrimsFacts TaggedHashes Errors SpecTags SpecBIP327
  KeyAgg Nonces Signature Signing SigAgg Bip340 SpecCtx SpecView SpecExtract Toy ToyData.
Import ListNotations.
Open Scope list_scope.
Open Scope Z_scope.
From Verif Require Import ProofsGuess.

(** C81.  Take any list of keys and a member P that is not the second key of the list, such as the
    first member, and let everything about the hash function be given but the digest that
    makes P's coefficient.  Each point is the aggregated key for exactly one residue class
    of that digest modulo n: whoever chooses the keys cannot aim at a key, nor avoid one.  ([C77_*]
    counts the digests of a class, on secp256k1 one or two of 2^256.) *)
Theorem C81_aggregated_key {Pr : prims} {Laws : prims_ok Pr} {Tags : tags_ok Pr} (pks : list (point Pr)) (P : point Pr) (Hlen : zlen pks <= 4294967295) (HP : In P pks) (Hsnd : get_second_key (map cbytes (map (@pval Pr) pks)) <> cbytes P) (Hcop : copies P pks mod n_ <> 0) :
  let L := tagged_hash "KeyAgg list" (concat (map cbytes (map (@pval Pr) pks))) in
  let input := sha256 (ascii_bytes "KeyAgg coefficient") ++ sha256 (ascii_bytes "KeyAgg coefficient") ++ L ++ cbytes P in
  let h := fun digest m => if bytes_eqb m input then digest else sha256 m in
  forall Q : point Pr, exists good : Z, 0 <= good < n_ /\ forall digest, length digest = 32%nat ->
    ((exists c, @key_agg_new (with_hash Pr (h digest)) (map (rehash (h digest)) pks) = Ok c /\
        pval (aggregated_pubkey c) = pval Q :> @pt Pr) <-> int_from_bytes digest mod n_ = good).
Proof. exact (@C81_aggregated_key_proof Pr Laws Tags pks P Hlen HP Hsnd Hcop). Qed.
Print Assumptions C81_aggregated_key.

(** The keys 3*G, 5*G, 3*G and P = 3*G: of the 31 residues of its digest, one gives the
    aggregated key 7*G. *)
Example C81_key_case :
  let pks := [tpt 3; tpt 5; tpt 3] in let P := tpt 3 in
  let L := tagged_hash "KeyAgg list" (concat (map cbytes (map (@pval Toy) pks))) in
  let input := @sha256 Toy (ascii_bytes "KeyAgg coefficient") ++ @sha256 Toy (ascii_bytes "KeyAgg coefficient") ++ L ++ cbytes P in
  let h := fun digest m => if bytes_eqb m input then digest else @sha256 Toy m in
  existsb (point_eqb P) pks && negb (bytes_eqb (get_second_key (map cbytes (map (@pval Toy) pks))) (cbytes P)) && negb (copies P pks mod 31 =? 0) &&
  (Nat.eqb (length (filter (fun k => match @key_agg_new (with_hash Toy (h (be_enc 32 (Z.of_nat k)))) (map (rehash (h (be_enc 32 (Z.of_nat k)))) pks) with
     | Ok c => @pt_eqb Toy (pval (aggregated_pubkey c)) (pval (tpt 7)) | _ => false end) (seq 0 31))) 1) = true.
Proof. vm_compute. reflexivity. Qed.

(** C81.  Fix a key, a message and any bytes as a signature, and let everything about the hash
    function be given but the digest of the challenge.  If the bytes are the x of a point and an
    integer below n, they verify for exactly one residue class of the digest modulo n; otherwise
    for no digest. *)
Theorem C81_signature {Pr : prims} {Laws : prims_ok Pr} {Tags : tags_ok Pr} (Q : point Pr) (sig msg : bytes) :
  let input := sha256 (ascii_bytes "BIP0340/challenge") ++ sha256 (ascii_bytes "BIP0340/challenge") ++
               firstn 32 sig ++ xbytes Q ++ msg in
  let h := fun digest m => if bytes_eqb m input then digest else sha256 m in
  let valid := fun digest => @verify_single_bytes (with_hash Pr (h digest)) (rehash (h digest) Q) sig msg = Ok tt in
  let well_formed := length sig = 64%nat /\ (exists R : point Pr, xbytes R = firstn 32 sig) /\ int_from_bytes (skipn 32 sig) < n_ in
  (well_formed -> exists good : Z, 0 <= good < n_ /\ forall digest, length digest = 32%nat ->
     (valid digest <-> int_from_bytes digest mod n_ = good)) /\
  (~ well_formed -> forall digest, length digest = 32%nat -> ~ valid digest).
Proof. exact (@C81_signature_proof Pr Laws Tags Q sig msg). Qed.
Print Assumptions C81_signature.

(** A signature on the toy curve is valid for one of the 31 residues; one whose s is 31 is not
    well formed and valid for none. *)
Example C81_signature_case :
  let Q := tpt 5 in let sig := fun s => xbytes (pval (tpt 9)) ++ be_enc 32 s in
  let input := fun s => @sha256 Toy (ascii_bytes "BIP0340/challenge") ++ @sha256 Toy (ascii_bytes "BIP0340/challenge") ++
               firstn 32 (sig s) ++ xbytes (pval Q) ++ toy_msg in
  let h := fun s digest m => if bytes_eqb m (input s) then digest else @sha256 Toy m in
  map (fun s => length (filter (fun k => is_ok (@verify_single_bytes (with_hash Toy (h s (be_enc 32 (Z.of_nat k))))
     (rehash (h s (be_enc 32 (Z.of_nat k))) Q) (sig s) toy_msg)) (seq 0 31))) [4; 31] = [1%nat; 0%nat].
Proof. vm_compute. reflexivity. Qed.

(** C81.  The same for adaptor signatures: any nonce point, scalar and adaptor point pass
    verification for exactly one residue class of the challenge's digest. *)
Theorem C81_adaptor_signature {Pr : prims} {Laws : prims_ok Pr} {Tags : tags_ok Pr} (Q : point Pr) (R T : pt) (s : mscalar Pr) (msg : bytes) :
  let input := sha256 (ascii_bytes "BIP0340/challenge") ++ sha256 (ascii_bytes "BIP0340/challenge") ++
               xbytes (pt_add R T) ++ xbytes Q ++ msg in
  let h := fun digest m => if bytes_eqb m input then digest else sha256 m in
  exists good : Z, 0 <= good < n_ /\ forall digest, length digest = 32%nat ->
    (@verify_single_adaptor (with_hash Pr (h digest)) (rehash (h digest) Q) (@adaptor_new (with_hash Pr (h digest)) R s) msg T = Ok tt
     <-> int_from_bytes digest mod n_ = good).
Proof. exact (@C81_adaptor_signature_proof Pr Laws Tags Q R T s msg). Qed.
Print Assumptions C81_adaptor_signature.

Example C81_adaptor_case :
  let Q := tpt 5 in let R := pval (tpt 9) in let T := pval (tpt 11) in
  let input := @sha256 Toy (ascii_bytes "BIP0340/challenge") ++ @sha256 Toy (ascii_bytes "BIP0340/challenge") ++
               xbytes (@pt_add Toy R T) ++ xbytes (pval Q) ++ toy_msg in
  let h := fun digest m => if bytes_eqb m input then digest else @sha256 Toy m in
  length (filter (fun k => is_ok (@verify_single_adaptor (with_hash Toy (h (be_enc 32 (Z.of_nat k))))
     (rehash (h (be_enc 32 (Z.of_nat k))) Q) (@adaptor_new (with_hash Toy (h (be_enc 32 (Z.of_nat k)))) R (of_Z 31 4)) toy_msg T)) (seq 0 31)) = 1%nat.
Proof. vm_compute. reflexivity. Qed.
