(** Proofs of the theorems of PropertiesGuess.v. *)
From Coq Require Import String List.
From Verif Require Import Bytes BytesFacts Prims PrimsFacts TaggedHashes Errors SpecTags SpecBIP327
  KeyAgg Nonces Signature Signing SigAgg Bip340 SpecCtx SpecView SpecExtract Toy ToyData.
Import ListNotations.
Open Scope list_scope.
Open Scope Z_scope.
From Coq Require Import Lia.
From Verif Require Import CodecFacts KeyAggFacts SignatureFacts SigningFacts SpecFacts SpecSigning SessionFacts ProofsSoundness ProofsSingle ProofsExtraction ProofsRare.
Open Scope Z_scope.

Section Guess.
Context {Pr : prims} {Laws : prims_ok Pr}.
Add Ring fring0 : (fe_ring_theory (n := @ord Pr)).

(** The challenge in a world whose hash has the digest [v] at the challenge's input. *)
Lemma world_challenge {Tags : tags_ok Pr} (rx : bytes) (Q : point Pr) (msg input v : bytes) :
  input = sha256 (ascii_bytes "BIP0340/challenge") ++ sha256 (ascii_bytes "BIP0340/challenge") ++ rx ++ xbytes Q ++ msg ->
  let h := fun m => if bytes_eqb m input then v else sha256 m in
  @compute_challenge_hash_tweak (with_hash Pr h) rx (rehash h Q) msg = of_Z ord (be_dec v).
Proof.
  intros Hin h. rewrite tag_bip340_challenge in Hin. unfold compute_challenge_hash_tweak, reduce_from, tagged.
  change (@pt_x (with_hash Pr h) (pval (rehash h Q))) with (xbytes Q).
  rewrite <- Hin. change (@sha256 (with_hash Pr h) input) with (if bytes_eqb input input then v else sha256 input).
  rewrite bytes_eqb_refl. reflexivity.
Qed.

Lemma world_ok (input v : bytes) : length v = 32%nat ->
  prims_ok (with_hash Pr (fun m => if bytes_eqb m input then v else sha256 m)).
Proof. intro Hv. apply with_hash_ok. intro m. destruct (bytes_eqb m input); [exact Hv | apply sha_len]. Qed.

Lemma world_even (h : bytes -> bytes) (Q : point Pr) : prims_ok (with_hash Pr h) ->
  pval (@even_point (with_hash Pr h) (rehash h Q)) = pval (even_point Q) :> @pt Pr.
Proof. intro LI. transitivity (@pneg_if Pr (@pt_odd Pr Q) Q); [|symmetry; apply even_pneg]. apply (@even_pneg (with_hash Pr h)); exact LI. Qed.

Lemma class_iff (v : bytes) (k : mscalar Pr) : of_Z ord (be_dec v) = k <-> int_from_bytes v mod n_ = fz k.
Proof. split; [intros <-; rewrite fz_of_Z; reflexivity | intro H; apply fe_ext; rewrite fz_of_Z; exact H]. Qed.
End Guess.

Section C81_aggregated_key.
Context {Pr : prims}.
Add Ring ring_C81_aggregated_key : (fe_ring_theory (n := @ord Pr)).
Lemma C81_aggregated_key_proof {Laws : prims_ok Pr} {Tags : tags_ok Pr} (pks : list (point Pr)) (P : point Pr) (Hlen : zlen pks <= 4294967295) (HP : In P pks) (Hsnd : get_second_key (map cbytes (map (@pval Pr) pks)) <> cbytes P) (Hcop : copies P pks mod n_ <> 0) :
  let L := tagged_hash "KeyAgg list" (concat (map cbytes (map (@pval Pr) pks))) in
  let input := sha256 (ascii_bytes "KeyAgg coefficient") ++ sha256 (ascii_bytes "KeyAgg coefficient") ++ L ++ cbytes P in
  let h := fun digest m => if bytes_eqb m input then digest else sha256 m in
  forall Q : point Pr, exists good : Z, 0 <= good < n_ /\ forall digest, length digest = 32%nat ->
    ((exists c, @key_agg_new (with_hash Pr (h digest)) (map (rehash (h digest)) pks) = Ok c /\
        pval (aggregated_pubkey c) = pval Q :> @pt Pr) <-> int_from_bytes digest mod n_ = good).
Proof.
  cbv zeta. intro Q.
  destruct (world_sum pks P HP Hsnd Hcop) as (A & W & HW & HA). cbv zeta in HA.
  set (input := sha256 (ascii_bytes "KeyAgg coefficient") ++ _) in *. clearbody input.
  destruct (one_multiple A Q W HW) as [k Hk].
  exists (fz k). split; [apply fz_range|]. intros v Hv. destruct (HA v Hv) as [LI HA']. clear HA. rename HA' into HA.
  set (h := fun m => if bytes_eqb m input then v else sha256 m) in *.
  assert (Hz : zlen (map (rehash h) pks) <= 4294967295) by (unfold zlen in *; rewrite map_length; exact Hlen).
  assert (Hne' : map (rehash h) pks <> []) by (destruct pks; [destruct HP | discriminate]).
  rewrite <- class_iff, <- Hk.
  change ((exists c, @key_agg_new (with_hash Pr h) (map (rehash h) pks) = Ok c /\ pval (aggregated_pubkey c) = pval Q :> @pt Pr)
    <-> pt_add A (pmul (of_Z ord (be_dec v)) W) = Q).
  rewrite <- HA, (@key_agg_new_eq (with_hash Pr h) _ Hne' Hz).
  destruct (@not_inf (with_hash Pr h) _) as [Q'|] eqn:EQ.
  - apply (@not_inf_Some (with_hash Pr h)) in EQ. rewrite EQ. split.
    + intros (c & [= <-] & E). exact E.
    + intro E. eexists. split; [reflexivity | exact E].
  - apply (@not_inf_None (with_hash Pr h)) in EQ; try exact LI. rewrite EQ. split.
    + intros (c & F & _). discriminate F.
    + intro F. destruct (point_fin Q). symmetry. exact F.
Qed.
End C81_aggregated_key.

Section C81_signature.
Context {Pr : prims}.
Add Ring ring_C81_signature : (fe_ring_theory (n := @ord Pr)).
Lemma C81_signature_proof {Laws : prims_ok Pr} {Tags : tags_ok Pr} (Q : point Pr) (sig msg : bytes) :
  let input := sha256 (ascii_bytes "BIP0340/challenge") ++ sha256 (ascii_bytes "BIP0340/challenge") ++
               firstn 32 sig ++ xbytes Q ++ msg in
  let h := fun digest m => if bytes_eqb m input then digest else sha256 m in
  let valid := fun digest => @verify_single_bytes (with_hash Pr (h digest)) (rehash (h digest) Q) sig msg = Ok tt in
  let well_formed := length sig = 64%nat /\ (exists R : point Pr, xbytes R = firstn 32 sig) /\ int_from_bytes (skipn 32 sig) < n_ in
  (well_formed -> exists good : Z, 0 <= good < n_ /\ forall digest, length digest = 32%nat ->
     (valid digest <-> int_from_bytes digest mod n_ = good)) /\
  (~ well_formed -> forall digest, length digest = 32%nat -> ~ valid digest).
Proof.
  cbv zeta. set (input := sha256 _ ++ _). set (W := fun v m => if bytes_eqb m input then v else sha256 m).
  assert (V : forall v, length v = 32%nat ->
    (@verify_single_bytes (with_hash Pr (W v)) (rehash (W v) Q) sig msg = Ok tt <->
     exists (R : point Pr) (s : mscalar Pr), pt_odd R = false /\ sig = pt_x R ++ ser_scalar s /\
       gmul s = pt_add R (pmul (of_Z ord (be_dec v)) (even_point Q)))).
  { intros v Hv. pose proof (world_ok input v Hv) as LI. fold (W v) in LI.
    rewrite (@verify_bytes_iff _ LI). split.
    - intros (R & s & HO & E & G). exists (@Point_ Pr (pval R) (p_fin R)), s. split; [exact HO|]. split; [exact E|].
      assert (C : @compute_challenge_hash_tweak (with_hash Pr (W v)) (@pt_x (with_hash Pr (W v)) R) (rehash (W v) Q) msg = of_Z ord (be_dec v)).
      { apply world_challenge. unfold input. rewrite E, (@sig_first _ LI). reflexivity. }
      rewrite C, (world_even (W v) Q LI) in G. exact G.
    - intros (R & s & HO & E & G). exists (rehash (W v) R), s. split; [exact HO|]. split; [exact E|].
      assert (C : @compute_challenge_hash_tweak (with_hash Pr (W v)) (@pt_x (with_hash Pr (W v)) (rehash (W v) R)) (rehash (W v) Q) msg = of_Z ord (be_dec v)).
      { apply world_challenge. unfold input. rewrite E, sig_first. reflexivity. }
      rewrite C, (world_even (W v) Q LI). exact G. }
  split.
  - intros (HL & (R0 & HR) & Hs).
    set (R := even_point R0). assert (HRe : pt_odd R = false) by apply even_point_even.
    assert (HRx : pt_x R = firstn 32 sig) by (unfold R; rewrite even_point_x; exact HR).
    set (s := of_Z ord (int_from_bytes (skipn 32 sig)) : mscalar Pr).
    assert (E : sig = pt_x R ++ ser_scalar s).
    { rewrite HRx, <- (firstn_skipn 32 sig) at 1. f_equal. unfold s.
      assert (L2 : length (skipn 32 sig) = 32%nat) by (rewrite skipn_length; lia).
      unfold ser_scalar. rewrite fz_of_Z, Z.mod_small by (split; [apply be_dec_range | exact Hs]). symmetry. apply be_enc_dec'. exact L2. }
    destruct (one_multiple R (gmul s) (even_point Q) (point_fin _)) as [k Hk].
    exists (fz k). split; [apply fz_range|]. intros v Hv. rewrite <- class_iff, <- Hk. rewrite (V v Hv). split.
    + intros (R' & s' & HO & E' & G). rewrite E in E'. apply sig_parts in E' as [<- <-]; try assumption. symmetry. exact G.
    + intro G. exists R, s. split; [exact HRe|]. split; [exact E | symmetry; exact G].
  - intros Hn v Hv Hval. apply Hn. apply (V v Hv) in Hval as (R & s & HO & E & G). rewrite E.
    rewrite sig_first, sig_second, int_ser. split; [rewrite app_length, x_len, ser_scalar_len; reflexivity|].
    split; [exists R; reflexivity | apply fz_range].
Qed.
End C81_signature.

Section C81_adaptor_signature.
Context {Pr : prims}.
Add Ring ring_C81_adaptor_signature : (fe_ring_theory (n := @ord Pr)).
Lemma C81_adaptor_signature_proof {Laws : prims_ok Pr} {Tags : tags_ok Pr} (Q : point Pr) (R T : pt) (s : mscalar Pr) (msg : bytes) :
  let input := sha256 (ascii_bytes "BIP0340/challenge") ++ sha256 (ascii_bytes "BIP0340/challenge") ++
               xbytes (pt_add R T) ++ xbytes Q ++ msg in
  let h := fun digest m => if bytes_eqb m input then digest else sha256 m in
  exists good : Z, 0 <= good < n_ /\ forall digest, length digest = 32%nat ->
    (@verify_single_adaptor (with_hash Pr (h digest)) (rehash (h digest) Q) (@adaptor_new (with_hash Pr (h digest)) R s) msg T = Ok tt
     <-> int_from_bytes digest mod n_ = good).
Proof.
  cbv beta zeta. set (input := sha256 _ ++ _).
  destruct (one_multiple (pneg_if (pt_odd (pt_add R T)) R) (gmul s) (even_point Q) (point_fin _)) as [k Hk].
  exists (fz k). split; [apply fz_range|]. intros v Hv. rewrite <- class_iff, <- Hk.
  pose proof (world_ok input v Hv) as LI. set (h := fun m => if bytes_eqb m input then v else sha256 m) in *.
  pose proof (@verify_adaptor_iff (with_hash Pr h) LI (rehash h Q) (@adaptor_new (with_hash Pr h) R s) msg T) as V.
  assert (C : @chal (with_hash Pr h) (@pt_add (with_hash Pr h) (a_R (@adaptor_new (with_hash Pr h) R s)) T) (rehash h Q) msg = of_Z ord (be_dec v)).
  { unfold chal. apply world_challenge. reflexivity. }
  rewrite C, (world_even h Q LI) in V. split.
  - intro H. symmetry. exact (proj1 V H).
  - intro H. apply (proj2 V). symmetry. exact H.
Qed.
End C81_adaptor_signature.
