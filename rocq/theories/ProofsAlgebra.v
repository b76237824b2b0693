(** Proofs of the theorems of PropertiesAlgebra.v. *)
From Coq Require Import String List.
From Verif Require Import Bytes BytesFacts Prims PrimsFacts TaggedHashes Errors SpecTags SpecBIP327
  KeyAgg Nonces Signature Signing SigAgg Bip340 SpecCtx SpecView SpecSession SpecExtract SpecReuse SpecAlgebra Toy ToyData ToyReuse ToyAlgebra.
Import ListNotations.
Open Scope list_scope.
Open Scope Z_scope.
From Coq Require Import Lia Arith Bool Znumtheory.
From Verif Require Import CodecFacts KeyAggFacts SignatureFacts SigningFacts SpecFacts SpecSigning SessionFacts ProofsSoundness ProofsSingle ProofsExtraction ProofsReuse ProofsSimulation Bip340Facts.
Open Scope Z_scope.

Section Sums.
Context {Pr : prims} {Laws : prims_ok Pr} {Tags : tags_ok Pr}.
Add Ring fring1 : (fe_ring_theory (n := @ord Pr)).

(** Sums over numbered elements, from any first number. *)
Definition from {A} (k : nat) (l : list A) (f : nat -> A -> Z) : Z :=
  fold_right Z.add 0 (map (fun jz => f (fst jz) (snd jz)) (combine (seq k (length l)) l)).
Definition from_points {A} (k : nat) (l : list A) (f : nat -> A -> pt) : pt :=
  fold_right pt_add pt_O (map (fun jz => f (fst jz) (snd jz)) (combine (seq k (length l)) l)).
Lemma from_cons {A} k (a : A) l f : from k (a :: l) f = f k a + from (S k) l f. Proof. reflexivity. Qed.
Lemma from_points_cons {A} k (a : A) l f : from_points k (a :: l) f = pt_add (f k a) (from_points (S k) l f). Proof. reflexivity. Qed.
Lemma from_ext {A} k (l : list A) f g : (forall j a, nth_error l j = Some a -> f (k + j)%nat a = g (k + j)%nat a) -> from k l f = from k l g.
Proof.
  revert k. induction l as [|a l IH]; intros k H; [reflexivity|]. rewrite !from_cons. pose proof (H O a eq_refl) as H0.
  rewrite Nat.add_0_r in H0. rewrite H0. f_equal. apply IH. intros j b Hb. pose proof (H (S j) b Hb) as E.
  replace (S k + j)%nat with (k + S j)%nat by lia. exact E.
Qed.
Lemma from_add {A} k (l : list A) f g : from k l (fun j a => f j a + g j a) = from k l f + from k l g.
Proof. revert k. induction l as [|a l IH]; intro k; [reflexivity|]. rewrite !from_cons, IH. ring. Qed.
Lemma from_scale {A} k (l : list A) z f : from k l (fun j a => z * f j a) = z * from k l f.
Proof. revert k. induction l as [|a l IH]; intro k; [cbn; ring|]. rewrite !from_cons, IH. ring. Qed.
Lemma from_map {A B} k (l : list A) (h : A -> B) f : from k (map h l) f = from k l (fun j a => f j (h a)).
Proof. revert k. induction l as [|a l IH]; intro k; [reflexivity|]. cbn [map]. rewrite !from_cons, IH. reflexivity. Qed.
(** A sum of multiples of the generator. *)
Lemma G_add a b : point_mul pt_G (a + b) = pt_add (point_mul pt_G a) (point_mul pt_G b).
Proof. rewrite !point_mul_gmul_Z, of_Z_add, gmul_add. reflexivity. Qed.
Lemma G_mul X a z : X = point_mul pt_G z -> point_mul X a = point_mul pt_G (a * z).
Proof. intros ->. rewrite !point_mul_gmul_Z. rewrite point_mul_Z, of_Z_mul, gmul_mul. reflexivity. Qed.
Lemma from_points_G {A} k (l : list A) f g : (forall j a, nth_error l j = Some a -> f (k + j)%nat a = point_mul pt_G (g (k + j)%nat a)) ->
  from_points k l f = point_mul pt_G (from k l g).
Proof.
  revert k. induction l as [|a l IH]; intros k H.
  - change (@pt_O Pr = point_mul pt_G 0). rewrite point_mul_gmul_Z. symmetry. apply gmul_0.
  - rewrite from_points_cons, from_cons, G_add. pose proof (H O a eq_refl) as H0. rewrite Nat.add_0_r in H0. rewrite H0. f_equal. apply IH.
    intros j b Hb. pose proof (H (S j) b Hb) as E. replace (S k + j)%nat with (k + S j)%nat by lia. exact E.
Qed.
Lemma G_exists (X : pt) : exists x, point_mul pt_G x = X.
Proof. destruct (dlog X) as [k Hk]. exists (fz k). rewrite point_mul_G. symmetry. exact Hk. Qed.
Lemma G_mod a b : a mod n_ = b mod n_ <-> point_mul pt_G a = point_mul pt_G b.
Proof. rewrite of_Z_iff, !point_mul_gmul_Z. split; [intros ->; reflexivity | apply gmul_inj]. Qed.
End Sums.

Section Logs.
Context {Pr : prims} {Laws : prims_ok Pr} {Tags : tags_ok Pr}.
Add Ring fring2 : (fe_ring_theory (n := @ord Pr)).
Context (P : point Pr) (S : list (closed Pr)) (x : Z) (y : nat -> Z).

(** The logarithm of the first nonce of a session. *)
Definition first_log (j : nat) (z : closed Pr) : Z :=
  use_sign (z_use z) * fz (use_signature (z_use z)) - use_sign (z_use z) * use_weight P (z_use z) * x - v_b (use_values (z_use z)) * y j.
(** The logarithm of a combination. *)
Definition log_of (r : rep) : Z :=
  on_G r + on_P r * x + from 0 S (fun j z => on_R1 r j * first_log j z + on_R2 r j * y j).

Lemma first_log_spec j z : point_mul pt_G x = P -> point_mul pt_G (y j) = pR2 (z_nonce z) -> session_of P z ->
  point_mul pt_G (first_log j z) = pR1 (z_nonce z).
Proof.
  intros Hx Hy (Hc & Hi & Hv). destruct (dlog_scalar P) as [sk HP]. rewrite HP in Hi, Hv.
  destruct (C74_valid_is_honest_proof _ sk (use_aggnonce (z_use z)) (use_adaptor (z_use z)) (use_message (z_use z)) (z_nonce z) Hc Hi) as (sn & Hn & _ & V).
  apply V in Hv. apply own_explains in Hv; [|exact Hc]. apply explains_iff in Hv. rewrite !of_Z_fz in Hv.
  rewrite <- Hn in *. cbn [public_nonce pR1 pR2] in *.
  assert (Ex : of_Z ord x = sk) by (apply gmul_inj; rewrite <- point_mul_gmul_Z, Hx, HP, base_mul_val; reflexivity).
  assert (Ey : of_Z ord (y j) = k2 sn) by (apply gmul_inj; rewrite <- point_mul_gmul_Z, Hy, base_mul_val; reflexivity).
  rewrite point_mul_gmul_Z, base_mul_val. f_equal. unfold first_log.
  rewrite !of_Z_sub, !of_Z_mul, use_weight_eq, use_b_eq, use_sign_eq, !of_Z_fz, Ex, Ey.
  rewrite <- HP in Hv. set (o := u_odd (z_use z)) in *. set (w := u_w P (z_use z)) in *. set (b := u_b (z_use z)) in *.
  assert (So : of_Z ord (if o then -1 else 1) = fneg_if o fone :> mscalar Pr).
  { destruct o; cbn [fneg_if]; [change (-1) with (- (1)); apply of_Z_opp | reflexivity]. }
  rewrite So. transitivity (fsub (fsub (fneg_if o (use_signature (z_use z))) (fmul w sk)) (fmul b (k2 sn)) : mscalar Pr).
  - destruct o; cbn [fneg_if]; ring.
  - rewrite Hv. ring.
Qed.

Lemma stands_log r X : point_mul pt_G x = P -> (forall j z, nth_error S j = Some z -> point_mul pt_G (y j) = pR2 (z_nonce z) /\ session_of P z) ->
  stands P S r X -> X = point_mul pt_G (log_of r).
Proof.
  intros Hx HS ->. unfold log_of. rewrite !G_add. f_equal; [f_equal; apply G_mul; symmetry; exact Hx|].
  apply (from_points_G 0). intros j z Hz. cbn [Nat.add]. destruct (HS j z Hz) as [Hy Hs]. rewrite G_add.
  rewrite (G_mul (pR1 (z_nonce z)) _ (first_log j z)) by (symmetry; apply first_log_spec; assumption).
  rewrite (G_mul (pR2 (z_nonce z)) _ (y j)) by (symmetry; assumption). reflexivity.
Qed.

Lemma log_plus r E k : log_of (plus r E k) = log_of r + E * log_of k.
Proof.
  unfold log_of, plus. cbn [on_G on_P on_R1 on_R2].
  rewrite (from_ext 0 S _ (fun j z => (on_R1 r j * first_log j z + on_R2 r j * y j) + E * (on_R1 k j * first_log j z + on_R2 k j * y j))) by (intros; cbv beta; ring).
  rewrite from_add, from_scale. ring.
Qed.
Lemma log_zero : log_of (Rep 0 0 (fun _ => 0) (fun _ => 0)) = 0.
Proof.
  unfold log_of. cbn [on_G on_P on_R1 on_R2]. rewrite (from_ext 0 S _ (fun _ _ => 0 * 0)) by (intros; cbv beta; ring). rewrite from_scale. ring.
Qed.
Lemma log_ext r k : on_G r = on_G k -> on_P r = on_P k -> (forall j, on_R1 r j = on_R1 k j) -> (forall j, on_R2 r j = on_R2 k j) -> log_of r = log_of k.
Proof.
  intros H1 H2 H3 H4. unfold log_of. rewrite H1, H2. f_equal. apply from_ext. intros. rewrite H3, H4. reflexivity.
Qed.
Lemma log_sum pks (a : point Pr -> Z) (rK : point Pr -> rep) :
  let sum f := fold_right Z.add 0 (map (fun K => a K * f (rK K)) pks) in
  log_of (Rep (sum on_G) (sum on_P) (fun j => sum (fun r => on_R1 r j)) (fun j => sum (fun r => on_R2 r j)))
  = fold_right Z.add 0 (map (fun K => a K * log_of (rK K)) pks).
Proof.
  cbv zeta. induction pks as [|K l IH]; [exact log_zero|]. cbn [map fold_right]. rewrite <- IH.
  match goal with |- _ = ?u * log_of ?v + log_of ?w => rewrite (Z.add_comm (u * log_of v)), <- (log_plus w u v) end. apply log_ext; unfold plus; cbn [on_G on_P on_R1 on_R2]; intros; ring.
Qed.

Lemma log_whole c sig msg r : whole P S c sig msg r x y = log_of r + forged_e c sig msg * key_sign c * fz (tweak_acc c).
Proof.
  unfold whole, known, left_P, log_of, weights, coefs. change (@over ?A ?l ?f) with (@from A 0 l f). rewrite from_map.
  rewrite (from_ext 0 S (fun j z => on_R1 r j * first_log j z + on_R2 r j * y j)
    (fun j z => (on_R1 r j * (use_sign (z_use z) * fz (use_signature (z_use z))) + (- x) * (on_R1 r j * (use_sign (z_use z) * use_weight P (z_use z))))
      + left_R2 r (map (fun z => v_b (use_values (z_use z))) S) j * y j)).
  - rewrite !from_add, from_scale. ring.
  - intros j z Hz. cbn [Nat.add]. unfold left_R2, first_log.
    rewrite (nth_error_nth _ _ _ (map_nth_error (fun z => v_b (use_values (z_use z))) j S Hz)). ring.
Qed.

Lemma sum_points (pks : list (point Pr)) (f : point Pr -> Z) : (forall K, In K pks -> pval K = point_mul pt_G (f K)) ->
  agg_sum_of pks = point_mul pt_G (fold_right Z.add 0 (map (fun K => coeff_in pks K * f K) pks)).
Proof.
  intro H. unfold agg_sum_of. 
  assert (E : forall l, (forall K, In K l -> In K pks) -> psum (map (fun K => pmul (coeff_of pks K) (pval K)) l)
    = point_mul pt_G (fold_right Z.add 0 (map (fun K => coeff_in pks K * f K) l))).
  { induction l as [|K l IH]; intro Hl.
    - cbn [map fold_right]. rewrite psum_nil, point_mul_gmul_Z. symmetry. apply gmul_0.
    - cbn [map fold_right]. rewrite psum_cons, IH, G_add by (intros; apply Hl; right; assumption). f_equal.
      rewrite <- (G_mul (pval K)) by (apply H, Hl; left; reflexivity). rewrite point_mul_Z, coeff_in_of, of_Z_fz. reflexivity. }
  apply E. auto.
Qed.

(** The equation of the signature. *)
Lemma signature_log c sig msg rR rK : ctx_reachable c -> verify_single_bytes (aggregated_pubkey c) sig msg = Ok tt ->
  point_mul pt_G x = P -> (forall j z, nth_error S j = Some z -> point_mul pt_G (y j) = pR2 (z_nonce z) /\ session_of P z) ->
  (forall R, pt_lift (firstn 32 sig) = Some R -> stands P S rR R) -> (forall K, In K (pubkeys c) -> stands P S (rK K) (pval K)) ->
  int_from_bytes (skipn 32 sig) mod n_ = whole P S c sig msg (plus rR (forged_E c sig msg) (sum_rep (pubkeys c) rK)) x y mod n_.
Proof.
  intros Hc V Hx HS HR HK. pose proof (reachable_wf c Hc) as W. unfold aggregated_pubkey in *.
  rewrite log_whole, log_plus. unfold sum_rep. rewrite log_sum.
  pose proof (sum_points (pubkeys c) (fun K => log_of (rK K)) (fun K H => stands_log _ _ Hx HS (HK K H))) as HA.
  set (A := fold_right Z.add 0 (map (fun K => coeff_in (pubkeys c) K * log_of (rK K)) (pubkeys c))) in *.
  unfold forged_E, forged_e, key_sign, aggregated_pubkey.
  apply verify_bytes_iff in V as (R & s & HO & E & G). subst sig. rewrite sig_first, sig_second, int_ser in *.
  assert (LR : pval R = point_mul pt_G (log_of rR)).
  { apply stands_log; [assumption..|]. apply HR. apply lift_spec. split; [apply point_fin|]. split; [exact HO | reflexivity]. }
  set (L := log_of rR) in *. pose proof (wf_key c W) as K. change (ordered_pubkeys c) with (pubkeys c) in K. rewrite HA in K.
  pose proof (chal_int (pt_x R) (pubkey c) msg) as CH. set (ch := compute_challenge_hash_tweak (pt_x R) (pubkey c) msg) in *.
  rewrite even_pneg in G. set (po := pt_odd (pubkey c)) in *. rewrite LR, K in G. rewrite !point_mul_gmul_Z, !pneg_if_gmul, <- gmul_add, pneg_if_gmul, <- gmul_mul, <- gmul_add in G.
  apply gmul_inj in G.
  set (e := int_from_bytes _) in *. rewrite mod_n in CH. apply fe_ext in CH. apply of_Z_iff. rewrite of_Z_fz, G, <- CH.
  rewrite !of_Z_add, !of_Z_mul, !of_Z_fz. unfold has_even_y. fold po.
  assert (So : forall o : bool, of_Z ord (if o then -1 else 1) = fneg_if o fone :> mscalar Pr).
  { intros []; cbn [fneg_if]; [change (-1) with (- (1)); apply of_Z_opp | reflexivity]. }
  replace (if negb po then 1 else -1) with (if po then -1 else 1) by (destruct po; reflexivity). rewrite !So.
  destruct po, (parity_acc c); cbn [fneg_if]; ring.
Qed.
End Logs.

Section Solve.
Context {Pr : prims} {Laws : prims_ok Pr} {Tags : tags_ok Pr}.

Lemma n_pos : 0 < @n_ Pr. Proof. reflexivity. Qed.
Lemma mod_div a b : a mod @n_ Pr = b mod n_ <-> (@n_ Pr | a - b).
Proof.
  pose proof n_pos as N. set (n := @n_ Pr) in *. clearbody n. split.
  - intro H. exists (a / n - b / n). pose proof (Z_div_mod_eq_full a n). pose proof (Z_div_mod_eq_full b n). lia.
  - intros [k Hk]. replace a with (b + k * n) by lia. apply Z_mod_plus_full.
Qed.
Lemma mod0_div a : a mod @n_ Pr = 0 <-> (@n_ Pr | a).
Proof. change 0 with (0 mod @n_ Pr). rewrite mod_div, Z.sub_0_r. reflexivity. Qed.
Lemma n_prime : prime (@n_ Pr). Proof. exact ord_prime. Qed.
Lemma div_factor a b : (@n_ Pr | a * b) -> ~ (@n_ Pr | a) -> (@n_ Pr | b).
Proof. intros H N. destruct (prime_mult _ n_prime _ _ H) as [F|F]; [contradiction | exact F]. Qed.
Lemma div_lin a b u v : (@n_ Pr | a) -> (@n_ Pr | b) -> (@n_ Pr | u * a + v * b).
Proof. intros. apply Z.divide_add_r; apply Z.divide_mul_r; assumption. Qed.

(** Sums with equal residues. *)
Lemma from_div {A} k (l : list A) f g : (forall j a, nth_error l j = Some a -> (@n_ Pr | f (k + j)%nat a - g (k + j)%nat a)) -> (@n_ Pr | from k l f - from k l g).
Proof.
  revert k. induction l as [|a l IH]; intros k H; [exists 0; reflexivity|]. rewrite !from_cons. pose proof (H O a eq_refl) as H0.
  rewrite Nat.add_0_r in H0. replace (f k a + from (S k) l f - (g k a + from (S k) l g)) with ((f k a - g k a) + (from (S k) l f - from (S k) l g)) by ring.
  apply Z.divide_add_r; [exact H0|]. apply IH. intros j b Hb. pose proof (H (S j) b Hb) as E.
  replace (S k + j)%nat with (k + S j)%nat by lia. exact E.
Qed.
(** Sums that differ in one place. *)
Lemma from_one {A} k (l : list A) f g i a : nth_error l i = Some a ->
  (forall j a, nth_error l j = Some a -> j <> i -> (@n_ Pr | f (k + j)%nat a - g (k + j)%nat a)) ->
  (@n_ Pr | from k l f - from k l g - (f (k + i)%nat a - g (k + i)%nat a)).
Proof.
  revert k i. induction l as [|b l IH]; intros k i Hi H; [destruct i; discriminate|]. rewrite !from_cons. destruct i as [|i].
  - injection Hi as ->. rewrite Nat.add_0_r.
    replace (f k a + from (S k) l f - (g k a + from (S k) l g) - (f k a - g k a)) with (from (S k) l f - from (S k) l g) by ring.
    apply from_div. intros j c Hc. pose proof (H (S j) c Hc ltac:(discriminate)) as E. replace (S k + j)%nat with (k + S j)%nat by lia. exact E.
  - pose proof (H O b eq_refl ltac:(discriminate)) as H0. rewrite Nat.add_0_r in H0. replace (k + S i)%nat with (S k + i)%nat by lia.
    replace (f k b + from (S k) l f - (g k b + from (S k) l g) - (f (S k + i)%nat a - g (S k + i)%nat a))
      with ((f k b - g k b) + (from (S k) l f - from (S k) l g - (f (S k + i)%nat a - g (S k + i)%nat a))) by ring.
    apply Z.divide_add_r; [exact H0|]. apply IH; [exact Hi|]. intros j c Hc N.
    pose proof (H (S j) c Hc ltac:(congruence)) as E. replace (S k + j)%nat with (k + S j)%nat by lia. exact E.
Qed.
Lemma same_log a b : point_mul pt_G a = point_mul pt_G b <-> (@n_ Pr | a - b).
Proof. rewrite <- G_mod. apply mod_div. Qed.
(** Logarithms of all second nonces. *)
Lemma logs_exist (S : list (closed Pr)) : exists y : nat -> Z, forall j z, nth_error S j = Some z -> point_mul pt_G (y j) = pval (pR2 (z_nonce z)).
Proof.
  induction S as [|z S [y Hy]]; [exists (fun _ => 0); intros [|j] z; discriminate|].
  destruct (G_exists (pR2 (z_nonce z))) as [u Hu]. exists (fun j => match j with O => u | Datatypes.S j => y j end).
  intros [|j] z' H; [injection H as <-; exact Hu | exact (Hy j z' H)].
Qed.
Lemma over_plus {A} (l : list A) f g E : over l (fun j a => f j a + E * g j a) = over l f + E * over l g.
Proof. change (@over ?A ?l ?f) with (@from A 0 l f). rewrite from_add, from_scale. reflexivity. Qed.
Lemma left_P_plus r E k ws : left_P (plus r E k) ws = left_P r ws + E * left_P k ws.
Proof.
  unfold left_P, plus. cbn [on_P on_R1].
  assert (H : over ws (fun j w => (on_R1 r j + E * on_R1 k j) * w) = over ws (fun j w => on_R1 r j * w) + E * over ws (fun j w => on_R1 k j * w)).
  { rewrite <- over_plus. apply (from_ext 0). intros. cbv beta. ring. }
  rewrite H. ring.
Qed.
Lemma left_R2_plus r E k bs j : left_R2 (plus r E k) bs j = left_R2 r bs j + E * left_R2 k bs j.
Proof. unfold left_R2, plus. cbn [on_R2 on_R1]. ring. Qed.
Lemma two_values a b E E' : (@n_ Pr | a + E * b) -> (@n_ Pr | a + E' * b) -> ~ (@n_ Pr | E - E') -> (@n_ Pr | b).
Proof.
  intros H H' N. apply (div_factor (E - E')); [|exact N]. replace ((E - E') * b) with ((a + E * b) - (a + E' * b)) by ring.
  apply Z.divide_sub_r; assumption.
Qed.
Lemma from_app {A} k (l l' : list A) f : from k (l ++ l') f = from k l f + from (k + length l) l' f.
Proof.
  revert k. induction l as [|a l IH]; intro k; [cbn [app length]; rewrite Nat.add_0_r; reflexivity|].
  cbn [app length]. rewrite !from_cons, IH. replace (S k + length l)%nat with (k + S (length l))%nat by lia. ring.
Qed.
End Solve.

Section C89_signature_of_parts.
Context {Pr : prims}.
Add Ring ring_C89_signature_of_parts : (fe_ring_theory (n := @ord Pr)).
Lemma C89_signature_of_parts_proof {Laws : prims_ok Pr} {Tags : tags_ok Pr} (P : point Pr) (S : list (closed Pr)) (c : key_agg_ctx Pr) (sig msg : bytes) (rR : rep) (rK : point Pr -> rep) (Hc : ctx_reachable c) (H : verify_single_bytes (aggregated_pubkey c) sig msg = Ok tt) (HS : forall z, In z S -> session_of P z) (HR : forall R, pt_lift (firstn 32 sig) = Some R -> stands P S rR R) (HK : forall K, In K (pubkeys c) -> stands P S (rK K) (pval K)) :
  let m := plus rR (forged_E c sig msg) (sum_rep (pubkeys c) rK) in
  forall x y, point_mul pt_G x = pval P -> (forall j z, nth_error S j = Some z -> point_mul pt_G (y j) = pval (pR2 (z_nonce z))) ->
  int_from_bytes (skipn 32 sig) mod n_ = whole P S c sig msg m x y mod n_.
Proof.
  cbv zeta. intros x y Hx Hy. apply signature_log; try assumption. intros j z Hz. split; [apply Hy, Hz | apply HS, (nth_error_In _ _ Hz)].
Qed.
End C89_signature_of_parts.

Section C89_forger_solves.
Context {Pr : prims}.
Add Ring ring_C89_forger_solves : (fe_ring_theory (n := @ord Pr)).
Lemma C89_forger_solves_proof {Laws : prims_ok Pr} {Tags : tags_ok Pr} (P : point Pr) (S : list (closed Pr)) (c : key_agg_ctx Pr) (sig msg : bytes) (rR : rep) (rK : point Pr -> rep) (Hc : ctx_reachable c) (H : verify_single_bytes (aggregated_pubkey c) sig msg = Ok tt) (HS : forall z, In z S -> session_of P z) (HR : forall R, pt_lift (firstn 32 sig) = Some R -> stands P S rR R) (HK : forall K, In K (pubkeys c) -> stands P S (rK K) (pval K)) :
  let m := plus rR (forged_E c sig msg) (sum_rep (pubkeys c) rK) in
  let s := int_from_bytes (skipn 32 sig) in
  let second j := fun y : Z => forall z, nth_error S j = Some z -> point_mul pt_G y = pval (pR2 (z_nonce z)) in
  (left_P m (weights P S) mod n_ <> 0 ->
   forall y, (forall j, second j (y j)) ->
   forall x, s mod n_ = whole P S c sig msg m x y mod n_ <-> point_mul pt_G x = pval P) /\
  (forall j, (j < length S)%nat -> left_R2 m (coefs S) j mod n_ <> 0 ->
   forall x y, point_mul pt_G x = pval P -> (forall i, i <> j -> second i (y i)) ->
   (s mod n_ = whole P S c sig msg m x y mod n_ <-> second j (y j))) /\
  (nothing_left m (weights P S) (coefs S) -> s mod n_ = known S c sig msg m mod n_).
Proof.
  cbv zeta.
  pose proof (C89_signature_of_parts_proof P S c sig msg rR rK Hc H HS HR HK) as M. cbv zeta in M.
  set (m := plus rR (forged_E c sig msg) (sum_rep (pubkeys c) rK)) in *. set (s := int_from_bytes (skipn 32 sig)) in *. clearbody m s.
  destruct (G_exists P) as [x0 Hx0]. destruct (logs_exist S) as [y0 Hy0].
  split; [|split].
  - intros N y Hy x. split; [|intro Hx; apply M; [exact Hx | intros j z; apply Hy]].
    intro E. rewrite <- Hx0. apply same_log. rewrite (M x0 y Hx0 (fun j z => Hy j z)) in E. symmetry in E. apply mod_div in E.
    apply (div_factor (left_P m (weights P S))); [|intro F; apply N, mod0_div, F].
    unfold whole in E. match goal with |- (_ | ?t) => match type of E with (_ | ?u) => replace t with u by ring end end. exact E.
  - intros j Hj N x y Hx Hy. destruct (nth_error S j) as [z|] eqn:Hz; [|apply nth_error_None in Hz; lia].
    assert (D : (n_ | whole P S c sig msg m x y - whole P S c sig msg m x y0 - left_R2 m (coefs S) j * (y j - y0 j))).
    { unfold whole. change (@over ?A ?l ?f) with (@from A 0 l f).
      match goal with |- (_ | ?k + ?l * x + ?u - (?k + ?l * x + ?v) - ?t) => replace (k + l * x + u - (k + l * x + v) - t) with (u - v - t) by ring end.
      replace (left_R2 m (coefs S) j * (y j - y0 j)) with (left_R2 m (coefs S) (0 + j)%nat * y (0 + j)%nat - left_R2 m (coefs S) (0 + j)%nat * y0 (0 + j)%nat) by (cbn [Nat.add]; ring).
      apply (from_one 0 S (fun i _ => left_R2 m (coefs S) i * y i) (fun i _ => left_R2 m (coefs S) i * y0 i) j z Hz). intros i z' Hz' Ni. cbn [Nat.add]. rewrite <- Z.mul_sub_distr_l.
      apply Z.divide_mul_r. apply same_log. rewrite (Hy0 i z' Hz'). exact (Hy i Ni z' Hz'). }
    pose proof (M x y0 Hx Hy0) as T. split.
    + intros E z' Hz'. injection Hz' as <-. rewrite <- (Hy0 j z Hz). apply same_log.
      apply (div_factor (left_R2 m (coefs S) j)); [|intro F; apply N, mod0_div, F].
      rewrite T in E. symmetry in E. apply mod_div in E. pose proof (Z.divide_sub_r _ _ _ E D) as F.
      match goal with |- (_ | ?t) => match type of F with (_ | ?u) => replace t with u by ring end end. exact F.
    + intro Hs. rewrite T. symmetry. apply mod_div. pose proof (Hs z eq_refl) as Hs'. rewrite <- (Hy0 j z Hz) in Hs'. apply same_log in Hs'.
      pose proof (Z.divide_add_r _ _ _ D (Z.divide_mul_r _ (left_R2 m (coefs S) j) _ Hs')) as F.
      match goal with |- (_ | ?t) => match type of F with (_ | ?u) => replace t with u by ring end end. exact F.
  - intros [NP NR]. rewrite (M x0 y0 Hx0 Hy0). apply mod_div. unfold whole.
    match goal with |- (_ | ?t) => replace t with (left_P m (weights P S) * x0 + over S (fun j _ => left_R2 m (coefs S) j * y0 j)) by ring end.
    apply Z.divide_add_r; [apply Z.divide_mul_l, mod0_div, NP|].
    assert (Z0 : from 0 S (fun _ _ => 0 * 0) = 0) by (rewrite from_scale; ring).
    change (@over ?A ?l ?f) with (@from A 0 l f). rewrite <- (Z.sub_0_r (from 0 S _)), <- Z0.
    apply from_div. intros j z Hz. cbn [Nat.add]. rewrite Z.mul_0_l, Z.sub_0_r. apply Z.divide_mul_l, mod0_div, NR.
    unfold coefs. rewrite map_length. apply nth_error_Some. congruence.
Qed.
End C89_forger_solves.

Section C89_exception_rare.
Context {Pr : prims}.
Add Ring ring_C89_exception_rare : (fe_ring_theory (n := @ord Pr)).
Lemma C89_exception_rare_proof {Laws : prims_ok Pr} :
  (forall (r k : rep) (E E' : Z) (ws bs : list Z), nothing_left (plus r E k) ws bs -> nothing_left (plus r E' k) ws bs ->
    E mod n_ <> E' mod n_ -> nothing_left k ws bs) /\
  (forall (m : rep) (ws bs bs' : list Z) (b b' j : _), nothing_left m ws bs -> nothing_left m ws bs' ->
    nth_error bs j = Some b -> nth_error bs' j = Some b' -> b mod n_ <> b' mod n_ -> on_R1 m j mod n_ = 0) /\
  (forall (m : rep) (l r : list Z) (w w' : Z) (bs bs' : list Z), nothing_left m (l ++ w :: r) bs -> nothing_left m (l ++ w' :: r) bs' ->
    w mod n_ <> w' mod n_ -> on_R1 m (length l) mod n_ = 0).
Proof.
  split; [|split].
  - intros r k E E' ws bs [H1 H2] [H1' H2'] N. assert (ND : ~ (n_ | E - E')) by (rewrite <- mod_div; exact N). split.
    + rewrite left_P_plus in H1, H1'. apply mod0_div. apply mod0_div in H1. apply mod0_div in H1'. exact (two_values _ _ _ _ H1 H1' ND).
    + intros j Hj. specialize (H2 j Hj). specialize (H2' j Hj). rewrite left_R2_plus in H2, H2'. apply mod0_div.
      apply mod0_div in H2. apply mod0_div in H2'. exact (two_values _ _ _ _ H2 H2' ND).
  - intros m ws bs bs' b b' j [_ H2] [_ H2'] Hb Hb' N. assert (ND : ~ (n_ | b - b')) by (rewrite <- mod_div; exact N).
    assert (L : (j < length bs)%nat) by (apply nth_error_Some; congruence). assert (L' : (j < length bs')%nat) by (apply nth_error_Some; congruence).
    specialize (H2 j L). specialize (H2' j L'). unfold left_R2 in H2, H2'. rewrite (nth_error_nth _ _ _ Hb) in H2. rewrite (nth_error_nth _ _ _ Hb') in H2'.
    apply mod0_div in H2. apply mod0_div in H2'. apply mod0_div. apply (div_factor (b - b')); [|exact ND].
    replace ((b - b') * on_R1 m j) with ((on_R2 m j - on_R1 m j * b') - (on_R2 m j - on_R1 m j * b)) by ring. apply Z.divide_sub_r; assumption.
  - intros m l r w w' bs bs' [H1 _] [H1' _] N. assert (ND : ~ (n_ | w - w')) by (rewrite <- mod_div; exact N).
    unfold left_P in H1, H1'. change (@over ?A ?l ?f) with (@from A 0 l f) in H1, H1'. rewrite from_app, from_cons in H1, H1'. cbn [Nat.add] in H1, H1'.
    apply mod0_div in H1. apply mod0_div in H1'. apply mod0_div. apply (div_factor (w - w')); [|exact ND].
    pose proof (Z.divide_sub_r _ _ _ H1' H1) as F.
    match goal with |- (_ | ?t) => match type of F with (_ | ?u) => replace t with u by ring end end. exact F.
Qed.
End C89_exception_rare.

Section C89_known_members.
Context {Pr : prims}.
Add Ring ring_C89_known_members : (fe_ring_theory (n := @ord Pr)).
Lemma C89_known_members_proof {Laws : prims_ok Pr} (P : point Pr) (pks : list (point Pr)) (sk : point Pr -> Z) (ws bs : list Z) (r : rep) (E E' : Z) (Ha : (copies P pks * coeff_in pks P) mod n_ <> 0) :
  let rK K := if same P K then Rep 0 1 (fun _ => 0) (fun _ => 0) else Rep (sk K) 0 (fun _ => 0) (fun _ => 0) in
  nothing_left (plus r E (sum_rep pks rK)) ws bs -> nothing_left (plus r E' (sum_rep pks rK)) ws bs -> E mod n_ = E' mod n_.
Proof.
  cbv zeta. intros H H'. destruct (Z.eq_dec (E mod n_) (E' mod n_)) as [Q|N]; [exact Q|]. exfalso. apply Ha.
  destruct (proj1 C89_exception_rare_proof _ _ _ _ _ _ H H' N) as [F _]. rewrite <- F. f_equal. unfold left_P, sum_rep. cbn [on_P on_R1].
  change (@over ?A ?l ?f) with (@from A 0 l f). rewrite (from_ext 0 ws _ (fun _ _ => 0 * 0)).
  2:{ intros j a _. assert (Zj : forall l : list (point Pr), fold_right Z.add 0 (map (fun K => coeff_in pks K * on_R1 (if same P K then Rep 0 1 (fun _ => 0) (fun _ => 0) else Rep (sk K) 0 (fun _ => 0) (fun _ => 0)) (0 + j)%nat) l) = 0).
      { induction l as [|K l IH]; [reflexivity|]. cbn [map fold_right]. rewrite IH. destruct (same P K); cbn [on_R1]; ring. }
      rewrite Zj. ring. }
  rewrite from_scale, Z.mul_0_l, Z.sub_0_r. unfold copies.
  assert (G : forall l : list (point Pr), fold_right Z.add 0 (map (fun K => coeff_in pks K * on_P (if same P K then Rep 0 1 (fun _ => 0) (fun _ => 0) else Rep (sk K) 0 (fun _ => 0) (fun _ => 0))) l)
    = Z.of_nat (length (filter (same P) l)) * coeff_in pks P).
  { induction l as [|K l IH]; [reflexivity|]. cbn [map fold_right filter]. rewrite IH. destruct (same P K) eqn:EK; cbn [on_P].
    - apply same_iff in EK as ->. cbn [length]. rewrite Nat2Z.inj_succ. ring.
    - ring. }
  symmetry. apply G.
Qed.
End C89_known_members.
