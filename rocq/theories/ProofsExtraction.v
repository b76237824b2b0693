(** Proofs of the theorems of PropertiesExtraction.v. *)
From Coq Require Import String List.
From Verif Require Import Bytes BytesFacts Prims PrimsFacts TaggedHashes Errors SpecTags SpecBIP327
  KeyAgg Nonces Signature Signing SigAgg Bip340 SpecCtx SpecView SpecExtract Toy ToyData ToyExtract.
Import ListNotations.
Open Scope list_scope.
Open Scope Z_scope.
From Coq Require Import Lia.
From Verif Require Import CodecFacts KeyAggFacts KeyAggCodec SigningFacts SignatureFacts SpecFacts SpecSigning SessionFacts
  Bip340Facts ProofsBip340 ProofsSoundness.
Open Scope Z_scope.

Section Sums.
Context {Pr : prims} {Laws : prims_ok Pr}.
Add Ring fring0 : (fe_ring_theory (n := @ord Pr)).

Lemma same_iff (P K : point Pr) : same P K = true <-> K = P.
Proof. unfold same. rewrite pt_eqb_eq. split; [apply point_ext | congruence]. Qed.

Lemma of_Z_others (P : point Pr) pks f :
  of_Z ord (others P pks f) = fsum (map (fun K => of_Z ord (f K)) (filter (fun K => negb (same P K)) pks)) :> mscalar Pr.
Proof.
  unfold others. induction (filter _ pks) as [|K l IH]; [reflexivity|]. cbn [map fold_right].
  rewrite of_Z_add, IH, fsum_cons. reflexivity.
Qed.

(** The weighted sum of the keys, for any weights: the part of [P] and the rest. *)
Lemma weighted_split (P : point Pr) pks (A X : point Pr -> mscalar Pr) (x : mscalar Pr) :
  gmul x = P -> (forall K, In K pks -> K <> P -> gmul (X K) = K) ->
  psum (map (fun K => pmul (A K) (pval K)) pks)
  = gmul (fadd (fmul (fmul (of_Z ord (copies P pks)) (A P)) x)
               (fsum (map (fun K => fmul (A K) (X K)) (filter (fun K => negb (same P K)) pks)))).
Proof.
  intros Hx HX. unfold copies. induction pks as [|K l IH]; cbn [map filter].
  - cbn [List.length]. change (Z.of_nat 0) with 0. change (of_Z ord 0) with (fzero : mscalar Pr).
    rewrite psum_nil, fsum_nil, <- gmul_0. apply f_equal. ring.
  - rewrite psum_cons, IH by (intros K' HK; apply HX; right; exact HK).
    destruct (same P K) eqn:E; cbn [negb].
    + apply same_iff in E as ->. cbn [List.length]. rewrite Nat2Z.inj_succ. unfold Z.succ. rewrite of_Z_add.
      change (of_Z ord 1) with (fone : mscalar Pr). rewrite <- Hx at 1. rewrite <- gmul_mul, <- gmul_add. f_equal. ring.
    + assert (N : K <> P) by (intro F; apply same_iff in F; congruence).
      cbn [map]. rewrite fsum_cons, <- (HX K (or_introl eq_refl) N) at 1. rewrite <- gmul_mul, <- gmul_add. f_equal. ring.
Qed.

Lemma point_mul_gmul_Z (x : Z) : point_mul pt_G x = gmul (of_Z ord x).
Proof. unfold point_mul, gmul. rewrite pmul_of_Z. reflexivity. Qed.

Lemma of_Z_iff (y z : Z) : y mod n_ = z mod n_ <-> of_Z ord y = of_Z ord z :> mscalar Pr.
Proof. rewrite !mod_n. apply fz_inj_iff. Qed.

(** A linear equation that the logarithm of [P] satisfies has no other solution. *)
Lemma only_solution (P : pt) (w r : mscalar Pr) :
  (forall x, gmul x = P -> fmul w x = r) -> w <> fzero -> forall x, fmul w x = r -> gmul x = P.
Proof.
  intros H Hw x Hx. destruct (dlog P) as [k Hk]. rewrite Hk. f_equal. apply (fmul_cancel_l ord_prime w); [exact Hw|].
  rewrite Hx. symmetry. apply H. congruence.
Qed.
End Sums.

Section MemberSums.
Context {Pr : prims} {Laws : prims_ok Pr} {Tags : tags_ok Pr}.
Add Ring fring1 : (fe_ring_theory (n := @ord Pr)).

Lemma coeff_in_of (pks : list (point Pr)) K : coeff_in pks K = fz (coeff_of pks K).
Proof.
  unfold coeff_in. rewrite cbytes_ser, <- coeff_eq. f_equal. apply map_ext. intro. apply cbytes_ser.
Qed.

Lemma key_split (c : key_agg_ctx Pr) (P : point Pr) (sk : point Pr -> Z) (x : mscalar Pr) :
  ctx_wf c -> (forall K, In K (pubkeys c) -> K <> P -> point_mul pt_G (sk K) = K) -> gmul x = P ->
  pval (pubkey c) = gmul (fadd (fneg_if (parity_acc c)
    (fadd (fmul (of_Z ord (copies P (pubkeys c) * coeff_in (pubkeys c) P)) x)
          (of_Z ord (others P (pubkeys c) (fun K => coeff_in (pubkeys c) K * sk K))))) (tweak_acc c)).
Proof.
  intros W Hsk Hx. rewrite (wf_key c W). unfold agg_sum_of. change (ordered_pubkeys c) with (pubkeys c).
  rewrite (weighted_split P (pubkeys c) (coeff_of (pubkeys c)) (fun K => of_Z ord (sk K)) x Hx).
  2:{ intros K HK N. rewrite <- point_mul_gmul_Z. apply Hsk; assumption. }
  rewrite pneg_if_gmul, <- gmul_add. f_equal. f_equal. f_equal. rewrite of_Z_others. f_equal.
  - rewrite of_Z_mul, coeff_in_of, of_Z_fz. reflexivity.
  - f_equal. apply map_ext. intro K. rewrite of_Z_mul, coeff_in_of, of_Z_fz. reflexivity.
Qed.
End MemberSums.

Section C73_missing_key.
Context {Pr : prims}.
Add Ring ring_C73_missing_key : (fe_ring_theory (n := @ord Pr)).
Lemma C73_missing_key_proof {Laws : prims_ok Pr} {Tags : tags_ok Pr} (c : key_agg_ctx Pr) (P : point Pr) (d : Z) (sk : point Pr -> Z) (Hc : ctx_reachable c) (HP : In P (pubkeys c)) (Hd : point_mul pt_G d = pval (aggregated_pubkey c)) (Hsk : forall K, In K (pubkeys c) -> K <> P -> point_mul pt_G (sk K) = pval K) :
  let pks := pubkeys c in
  let w := copies P pks * coeff_in pks P in
  let r := gacc_of (parity_acc c) * (d - fz (tweak_acc c)) - others P pks (fun K => coeff_in pks K * sk K) in
  (forall x, point_mul pt_G x = pval P -> (w * x) mod n_ = r mod n_) /\
  (w mod n_ <> 0 -> forall x, (w * x) mod n_ = r mod n_ -> point_mul pt_G x = pval P).
Proof.
  cbv zeta. pose proof (reachable_wf c Hc) as W. unfold aggregated_pubkey in Hd. rewrite point_mul_gmul_Z in Hd.
  set (w := copies P (pubkeys c) * coeff_in (pubkeys c) P) in *.
  set (o := others P (pubkeys c) (fun K => coeff_in (pubkeys c) K * sk K)) in *.
  assert (E : forall x : mscalar Pr, gmul x = P ->
    fmul (of_Z ord w) x = of_Z ord (gacc_of (parity_acc c) * (d - fz (tweak_acc c)) - o)).
  { intros x Hx. pose proof (key_split c P sk x W Hsk Hx) as K. fold w o in K. rewrite <- Hd in K. apply gmul_inj in K.
    rewrite of_Z_sub, of_Z_mul, of_Z_gacc, of_Z_sub, of_Z_fz, K. destruct (parity_acc c); cbn [fneg_if]; ring. }
  split.
  - intros x Hx. apply of_Z_iff. rewrite of_Z_mul. apply E. rewrite <- point_mul_gmul_Z. exact Hx.
  - intros Hw x Hx. rewrite point_mul_gmul_Z. apply of_Z_iff in Hx. rewrite of_Z_mul in Hx.
    apply (only_solution P _ _ E); [|exact Hx]. intro F. apply Hw. rewrite mod_n, F. reflexivity.
Qed.
End C73_missing_key.

Section C73_two_signatures.
Context {Pr : prims}.
Add Ring ring_C73_two_signatures : (fe_ring_theory (n := @ord Pr)).
Lemma C73_two_signatures_proof {Laws : prims_ok Pr} {Tags : tags_ok Pr} (c : key_agg_ctx Pr) (P : point Pr) (sk : point Pr -> Z) (sig sig' : bytes) (msg msg' : bytes) (Hc : ctx_reachable c) (HP : In P (pubkeys c)) (Hsk : forall K, In K (pubkeys c) -> K <> P -> point_mul pt_G (sk K) = pval K) (H : verify_single_bytes (aggregated_pubkey c) sig msg = Ok tt) (H' : verify_single_bytes (aggregated_pubkey c) sig' msg' = Ok tt) (HR : firstn 32 sig = firstn 32 sig') :
  let pks := pubkeys c in
  let Q := pval (aggregated_pubkey c) in
  let e := fun m => int_from_bytes (tagged_hash "BIP0340/challenge" (firstn 32 sig ++ xbytes Q ++ m)) mod n_ in
  let D := e msg - e msg' in
  let ds := (if has_even_y Q then 1 else -1) * (int_from_bytes (skipn 32 sig) - int_from_bytes (skipn 32 sig')) in
  let w := D * (copies P pks * coeff_in pks P) in
  let r := gacc_of (parity_acc c) * (ds - D * fz (tweak_acc c)) - D * others P pks (fun K => coeff_in pks K * sk K) in
  (forall x, point_mul pt_G x = pval P -> (w * x) mod n_ = r mod n_) /\
  (w mod n_ <> 0 -> forall x, (w * x) mod n_ = r mod n_ -> point_mul pt_G x = pval P).
Proof.
  cbv zeta. pose proof (reachable_wf c Hc) as W. unfold aggregated_pubkey in *.
  apply verify_bytes_iff in H as (R & s & HO & -> & G), H' as (R' & s' & HO' & -> & G').
  rewrite !sig_first in HR. assert (R = R') as <- by (apply even_x_inj; assumption).
  rewrite sig_first, !sig_second, !int_ser, !chal_int.
  set (e := compute_challenge_hash_tweak (pt_x R) (pubkey c) msg) in *.
  set (e' := compute_challenge_hash_tweak (pt_x R) (pubkey c) msg') in *. clearbody e e'.
  set (w := copies P (pubkeys c) * coeff_in (pubkeys c) P) in *.
  set (o := others P (pubkeys c) (fun K => coeff_in (pubkeys c) K * sk K)) in *.
  set (sg := if has_even_y (pubkey c) then 1 else -1).
  assert (E : forall x : mscalar Pr, gmul x = P ->
    fmul (of_Z ord ((fz e - fz e') * w)) x
    = of_Z ord (gacc_of (parity_acc c) * (sg * (fz s - fz s') - (fz e - fz e') * fz (tweak_acc c)) - (fz e - fz e') * o)).
  { intros x Hx. pose proof (key_split c P sk x W Hsk Hx) as K. fold w o in K.
    match type of K with _ = gmul ?q => set (q0 := q) in * end.
    assert (F : fmul (fsub e e') (fneg_if (pt_odd (pubkey c)) q0) = fsub s s').
    { rewrite even_pneg in G, G'. set (po := pt_odd (pubkey c)) in *. rewrite K, pneg_if_gmul in G, G'.
      apply gmul_inj. rewrite gmul_sub, G, G', gmul_mul, pmul_sub. unfold psub. rewrite neg_add.
      match goal with |- pt_add ?A (pt_neg ?B) = pt_add (pt_add _ ?C) (pt_add _ ?D) => set (A1 := A); set (B1 := pt_neg B) end.
      transitivity (pt_add (pt_add R (pt_neg R)) (pt_add A1 B1)); [rewrite add_neg_r, add_O_l; reflexivity|].
      rewrite !add_assoc. f_equal. rewrite <- !add_assoc. f_equal. apply add_comm. }
    assert (Sg : of_Z ord sg = fneg_if (pt_odd (pubkey c)) fone :> mscalar Pr).
    { unfold sg, has_even_y. destruct (pt_odd (pubkey c)); cbn [negb fneg_if]; [change (-1) with (- (1)); apply of_Z_opp | reflexivity]. }
    rewrite !of_Z_sub, !of_Z_mul, of_Z_gacc, !of_Z_sub, !of_Z_mul, !of_Z_sub, !of_Z_fz, Sg, <- F. unfold q0.
    destruct (parity_acc c), (pt_odd (pubkey c)); cbn [fneg_if]; ring. }
  split.
  - intros x Hx. apply of_Z_iff. rewrite of_Z_mul. apply E. rewrite <- point_mul_gmul_Z. exact Hx.
  - intros Hw x Hx. rewrite point_mul_gmul_Z. apply of_Z_iff in Hx. rewrite of_Z_mul in Hx.
    apply (only_solution P _ _ E); [|exact Hx]. intro F. apply Hw. rewrite mod_n, F. reflexivity.
Qed.
End C73_two_signatures.

Section Rewind.
Context {Pr : prims} {Laws : prims_ok Pr}.
Add Ring fring2 : (fe_ring_theory (n := @ord Pr)).

Lemma with_hash_ok h : (forall m, length (h m) = 32%nat) -> prims_ok (with_hash Pr h).
Proof.
  intro Hh. constructor; try exact Hh.
  - exact (@add_assoc Pr Laws).
  - exact (@add_comm Pr Laws).
  - exact (@add_O_l Pr Laws).
  - exact (@add_neg_r Pr Laws).
  - exact (@pt_eqb_eq Pr Laws).
  - exact (@ord_prime Pr Laws).
  - exact (@ord_small Pr Laws).
  - exact (@G_ord Pr Laws).
  - exact (@G_gen Pr Laws).
  - exact (@odd_neg Pr Laws).
  - exact (@x_neg Pr Laws).
  - exact (@x_inj Pr Laws).
  - exact (@x_len Pr Laws).
  - exact (@lift_spec Pr Laws).
Qed.

(** One pair of runs: with one aggregated key, the equation for its logarithm. *)
Lemma pair_equation (Q : pt) (R : pt) (q s s' e e' : mscalar Pr) :
  Q = gmul q -> gmul s = pt_add R (pmul e (pneg_if (pt_odd Q) Q)) -> gmul s' = pt_add R (pmul e' (pneg_if (pt_odd Q) Q)) ->
  fmul (fsub e e') q = fneg_if (pt_odd Q) (fsub s s').
Proof.
  intros HQ G G'. set (po := pt_odd Q) in *. rewrite HQ, pneg_if_gmul in G, G'.
  assert (F : fmul (fsub e e') (fneg_if po q) = fsub s s').
  { apply gmul_inj. rewrite gmul_sub, G, G', gmul_mul, pmul_sub. unfold psub. rewrite neg_add.
    match goal with |- pt_add ?A (pt_neg ?B) = pt_add (pt_add _ ?C) (pt_add _ ?D) => set (A1 := A); set (B1 := pt_neg B) end.
    transitivity (pt_add (pt_add R (pt_neg R)) (pt_add A1 B1)); [rewrite add_neg_r, add_O_l; reflexivity|].
    rewrite !add_assoc. f_equal. rewrite <- !add_assoc. f_equal. apply add_comm. }
  rewrite <- F. destruct po; cbn [fneg_if]; ring.
Qed.

(** Two weighted sums whose weights are in one proportion on everyone but [P]. *)
Lemma two_sums (P : point Pr) pks (A B : point Pr -> mscalar Pr) (g x : mscalar Pr) :
  gmul x = P -> (forall K, In K pks -> K <> P -> A K = fmul g (B K)) ->
  exists o, psum (map (fun K => pmul (A K) (pval K)) pks) = gmul (fadd (fmul (fmul (of_Z ord (copies P pks)) (A P)) x) (fmul g o))
    /\ psum (map (fun K => pmul (B K) (pval K)) pks) = gmul (fadd (fmul (fmul (of_Z ord (copies P pks)) (B P)) x) o).
Proof.
  intros Hx HX. unfold copies. induction pks as [|K l IH]; cbn [map filter].
  - exists fzero. cbn [List.length]. change (Z.of_nat 0) with 0. change (of_Z ord 0) with (fzero : mscalar Pr).
    rewrite psum_nil, <- gmul_0. split; apply f_equal; ring.
  - destruct IH as (o & I1 & I2); [intros K' HK; apply HX; right; exact HK|]. rewrite !psum_cons, I1, I2.
    destruct (same P K) eqn:E.
    + apply same_iff in E as ->. exists o. cbn [List.length]. rewrite Nat2Z.inj_succ. unfold Z.succ. rewrite !of_Z_add.
      change (of_Z ord 1) with (fone : mscalar Pr). rewrite <- Hx. rewrite <- !gmul_mul, <- !gmul_add. split; apply f_equal; ring.
    + assert (N : K <> P) by (intro F; apply same_iff in F; congruence).
      rewrite (HX K (or_introl eq_refl) N), pmul_mul. destruct (dlog (pmul (B K) K)) as [k Hk]. rewrite Hk.
      exists (fadd o k). rewrite <- !gmul_mul, <- !gmul_add. split; apply f_equal; ring.
Qed.
End Rewind.

Section C73_rewinding.
Context {Pr : prims}.
Add Ring ring_C73_rewinding : (fe_ring_theory (n := @ord Pr)).
Lemma C73_rewinding_proof {Laws : prims_ok Pr} (h : bool -> bool -> bytes -> bytes) (Hlen : forall i j m, length (h i j m) = 32%nat) (Htags : forall i j, tags_ok (with_hash Pr (h i j))) (pks : list (point Pr)) (P : point Pr) (HP : In P pks) (c : forall i j, key_agg_ctx (with_hash Pr (h i j))) (Hc : forall i j, @key_agg_new (with_hash Pr (h i j)) (map (rehash (h i j)) pks) = Ok (c i j)) (A : bool -> point Pr -> Z) (HA : forall i j K, In K pks -> @coeff_in (with_hash Pr (h i j)) (map (rehash (h i j)) pks) (rehash (h i j) K) = A i K) (g : Z) (Hothers : forall K, In K pks -> K <> P -> A true K mod n_ = (g * A false K) mod n_) (sig msg : bool -> bool -> bytes) (Hsig : forall i j, @verify_single_bytes (with_hash Pr (h i j)) (aggregated_pubkey (c i j)) (sig i j) (msg i j) = Ok tt) (Hnonce : forall i, firstn 32 (sig i true) = firstn 32 (sig i false)) :
  let e := fun i j => int_from_bytes (@tagged_hash (with_hash Pr (h i j)) "BIP0340/challenge"
             (firstn 32 (sig i j) ++ @xbytes Pr (pval (aggregated_pubkey (c i j))) ++ msg i j)) mod n_ in
  let s := fun i j => int_from_bytes (skipn 32 (sig i j)) in
  let D := fun i => e i true - e i false in
  let S := fun i => (if @has_even_y Pr (pval (aggregated_pubkey (c i true))) then 1 else -1) * (s i true - s i false) in
  let w := D true * D false * (copies P pks * (A true P - g * A false P)) in
  let r := D false * S true - g * D true * S false in
  (forall x, point_mul pt_G x = pval P -> (w * x) mod n_ = r mod n_) /\
  (w mod n_ <> 0 -> forall x, (w * x) mod n_ = r mod n_ -> point_mul pt_G x = pval P).
Proof.
  cbv zeta.
  assert (LI : forall i j, prims_ok (with_hash Pr (h i j))) by (intros i j; apply with_hash_ok; intro; apply Hlen).
  (* the aggregated keys, in the group of [Pr] *)
  assert (HQ : forall i j, pval (aggregated_pubkey (c i j)) = psum (map (fun K : point Pr => pmul (of_Z ord (A i K)) (pval K)) pks) :> @pt Pr).
  { intros i j. pose proof (Hc i j) as H. apply (@key_agg_new_Ok _ (LI i j)) in H as (_ & _ & W & Hk & Hp & Ht).
    unfold aggregated_pubkey. rewrite (@wf_key _ _ W), Hp, Ht, Hk. cbn [pneg_if].
    rewrite (@gmul_0 _), (@add_O_r _ (LI i j)). unfold agg_sum_of. rewrite map_map.
    transitivity (@psum Pr (map (fun K : point Pr => @pmul Pr (of_Z (@ord Pr) (A i K)) (pval K)) pks)); [|reflexivity].
    change (@psum (with_hash Pr (h i j))) with (@psum Pr). f_equal. apply map_ext_in. intros K HK.
    rewrite <- (HA i j K HK), (@coeff_in_of _ (LI i j) (Htags i j)), of_Z_fz. reflexivity. all: exact (LI i j). }
  (* what each signature says *)
  assert (V : forall i j, exists (R : point Pr) (s e : mscalar Pr), @pt_odd Pr R = false /\ firstn 32 (sig i j) = @pt_x Pr R /\
    int_from_bytes (skipn 32 (sig i j)) = fz s /\
    int_from_bytes (@tagged_hash (with_hash Pr (h i j)) "BIP0340/challenge"
      (firstn 32 (sig i j) ++ @xbytes Pr (pval (aggregated_pubkey (c i j))) ++ msg i j)) mod @n_ Pr = fz e /\
    gmul s = @pt_add Pr R (@pmul Pr e (@pneg_if Pr (@pt_odd Pr (pval (aggregated_pubkey (c i j)))) (pval (aggregated_pubkey (c i j)))))).
  { intros i j. pose proof (Hsig i j) as H. apply (@verify_bytes_iff _ (LI i j)) in H as (R & s & HO & E & G).
    exists (@Point_ Pr (pval R) (p_fin R)), s, (@compute_challenge_hash_tweak (with_hash Pr (h i j)) (@pt_x (with_hash Pr (h i j)) R) (aggregated_pubkey (c i j)) (msg i j)).
    rewrite E, (@sig_first _ (LI i j)), (@sig_second _ (LI i j)), (@int_ser _ (LI i j)).
    split; [exact HO|]. split; [reflexivity|]. split; [reflexivity|].
    split; [exact (@chal_int _ (Htags i j) _ (aggregated_pubkey (c i j)) (msg i j))|].
    rewrite even_pneg in G. exact G. all: exact (LI i j). }
  (* the pair of runs [i] *)
  assert (U : forall i, exists d s : mscalar Pr,
    of_Z ord (int_from_bytes (@tagged_hash (with_hash Pr (h i true)) "BIP0340/challenge"
      (firstn 32 (sig i true) ++ @xbytes Pr (pval (aggregated_pubkey (c i true))) ++ msg i true)) mod n_
    - int_from_bytes (@tagged_hash (with_hash Pr (h i false)) "BIP0340/challenge"
      (firstn 32 (sig i false) ++ @xbytes Pr (pval (aggregated_pubkey (c i false))) ++ msg i false)) mod n_) = d /\
    of_Z ord ((if @has_even_y Pr (pval (aggregated_pubkey (c i true))) then 1 else -1)
      * (int_from_bytes (skipn 32 (sig i true)) - int_from_bytes (skipn 32 (sig i false)))) = s /\
    forall q, psum (map (fun K : point Pr => pmul (of_Z ord (A i K)) (pval K)) pks) = gmul q -> fmul d q = s).
  { intro i. destruct (V i true) as (R & s & e & HO & HR & Hs & He & G), (V i false) as (R' & s' & e' & HO' & HR' & Hs' & He' & G').
    rewrite He, He', Hs, Hs'. rewrite (HQ i true) in *. rewrite (HQ i false) in G'. 
    pose proof (Hnonce i) as N. rewrite HR, HR' in N. assert (R = R') as <- by (apply even_x_inj; assumption).
    do 2 eexists. split; [reflexivity|]. split; [reflexivity|]. intros q Hq.
    pose proof (pair_equation _ R q s s' e e' Hq G G') as F. rewrite of_Z_sub, !of_Z_fz, F, of_Z_mul, of_Z_sub, !of_Z_fz.
    unfold has_even_y. set (po := pt_odd _). destruct po; cbn [negb fneg_if].
    - change (-1) with (- (1)). rewrite of_Z_opp. change (of_Z ord 1) with (fone : mscalar Pr). ring.
    - change (of_Z ord 1) with (fone : mscalar Pr). ring. }
  destruct (U true) as (d1 & s1 & E1 & F1 & U1), (U false) as (d2 & s2 & E2 & F2 & U2).
  match type of E1 with of_Z ord ?a = _ => set (D1 := a) in * end.
  match type of E2 with of_Z ord ?a = _ => set (D2 := a) in * end.
  match type of F1 with of_Z ord ?a = _ => set (S1 := a) in * end.
  match type of F2 with of_Z ord ?a = _ => set (S2 := a) in * end.
  clearbody D1 D2 S1 S2. clear U V HQ.
  assert (E : forall x : mscalar Pr, gmul x = P ->
    fmul (of_Z ord (D1 * D2 * (copies P pks * (A true P - g * A false P)))) x = of_Z ord (D2 * S1 - g * D1 * S2)).
  { intros x Hx. destruct (two_sums P pks (fun K => of_Z ord (A true K)) (fun K => of_Z ord (A false K)) (of_Z ord g) x Hx) as (o & O1 & O2).
    { intros K HK N. rewrite <- of_Z_mul. apply of_Z_iff, Hothers; assumption. }
    apply U1 in O1. apply U2 in O2.
    rewrite of_Z_sub, !of_Z_mul, of_Z_sub, !of_Z_mul, E1, E2, F1, F2, <- O1, <- O2. ring. }
  split.
  - intros x Hx. apply of_Z_iff. rewrite of_Z_mul. apply E. rewrite <- point_mul_gmul_Z. exact Hx.
  - intros Hw x Hx. rewrite point_mul_gmul_Z. apply of_Z_iff in Hx. rewrite of_Z_mul in Hx.
    apply (only_solution P _ _ E); [|exact Hx]. intro F. apply Hw. rewrite mod_n, F. reflexivity.
Qed.
End C73_rewinding.
