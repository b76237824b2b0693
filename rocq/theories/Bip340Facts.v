(** Lemmas about single-signer signing and batch verification. *)
From Coq Require Import List.
From Verif Require Import Bytes BytesFacts Prims PrimsFacts CodecFacts TaggedHashes Errors SpecBIP327
  KeyAgg Nonces Signature Signing Bip340 SigningFacts SignatureFacts SpecFacts SpecSigning SpecSession SessionFacts SpecBatch.
Import ListNotations.
Open Scope Z_scope.

Section Bip340Facts.
Context {Pr : prims} {Laws : prims_ok Pr}.
Add Ring fring : (fe_ring_theory (n := @ord Pr)).

(** *** Single-signer signing *)

Lemma solo_adaptor_verifies (sk : scalar Pr) msg seed T :
  verify_single_adaptor (base_mul sk) (sign_solo_adaptor sk msg seed T) msg T = Ok tt.
Proof.
  apply verify_adaptor_iff. unfold sign_solo_adaptor, adaptor_new. cbn [a_R a_s].
  rewrite !base_mul_val. set (k := solo_prenonce sk msg seed).
  rewrite gmul_add, gmul_mul. f_equal.
  - destruct (pt_odd (pt_add (gmul k) T)); cbn [fneg_if pneg_if]; [apply gmul_neg | reflexivity].
  - rewrite even_pneg, !base_mul_val. unfold chal. f_equal.
    destruct (pt_odd (gmul sk)); cbn [fneg_if pneg_if]; [apply gmul_neg | reflexivity].
Qed.

Lemma solo_adaptor_R (sk : scalar Pr) msg seed T :
  a_R (sign_solo_adaptor sk msg seed T) = gmul (solo_prenonce sk msg seed).
Proof. unfold sign_solo_adaptor, adaptor_new. cbn [a_R]. apply base_mul_val. Qed.

Lemma sign_solo_Ok (sk : scalar Pr) msg seed :
  exists l, sign_solo sk msg seed = Ok l /\ pt_odd (l_R l) = false /\
    verify_single_lifted (base_mul sk) l msg = Ok tt.
Proof.
  unfold sign_solo. destruct (adapt (sign_solo_adaptor sk msg seed pt_O) fzero) as [l|] eqn:E.
  - exists l. split; [reflexivity|]. split; [eapply adapt_even; eassumption|].
    eapply verified_adapt; [|eassumption]. rewrite gmul_0. apply solo_adaptor_verifies.
  - exfalso. apply adapt_None in E. rewrite solo_adaptor_R, gmul_0, add_O_r in E.
    apply gmul_eq_O in E. apply (scalar_nz _ E).
Qed.

(** *** Batch verification *)

(** How far a row is from its equation. *)
Definition defect (r : batch_row Pr) : pt :=
  psub (gmul (row_s r)) (pt_add (row_R r) (pmul (row_challenge r) (even_point (row_pubkey r)))).

Lemma psub_O (P Q : pt) : psub P Q = pt_O <-> P = Q.
Proof.
  unfold psub. split.
  - intro H. apply (add_cancel_r _ _ (pt_neg Q)). rewrite H, add_neg_r. reflexivity.
  - intros ->. apply add_neg_r.
Qed.

Lemma row_valid_defect r : row_valid r <-> defect r = pt_O.
Proof.
  unfold row_valid, defect. rewrite psub_O, point_mul_G, even_if, if_neg_pneg, even_pneg. reflexivity.
Qed.

Lemma item_row_valid it : item_wf it -> (row_valid (item_row it) <-> item_verdict it = Ok tt).
Proof.
  intro Hw. rewrite row_valid_defect. unfold defect. rewrite psub_O.
  destruct it as [pk msg sg|pk msg sg T]; cbn [item_row item_verdict row_from_signature row_from_adaptor row_pubkey row_challenge row_R row_s].
  - unfold item_wf, has_even_y in Hw. rewrite verify_lifted_iff by (destruct (pt_odd (l_R sg)); [discriminate|reflexivity]).
    reflexivity.
  - rewrite verify_adaptor_iff, if_even_pneg. reflexivity.
Qed.

(** Sum of a_i * defect_i. *)
Fixpoint defects (cs : list (mscalar Pr)) (rows : list (batch_row Pr)) : pt :=
  match cs, rows with
  | a :: cs', r :: rows' => pt_add (pmul a (defect r)) (defects cs' rows')
  | _, _ => pt_O
  end.

Lemma add_swap (a b c d : pt) : pt_add (pt_add a b) (pt_add c d) = pt_add (pt_add a c) (pt_add b d).
Proof. rewrite !add_assoc. f_equal. rewrite <- !add_assoc. f_equal. apply add_comm. Qed.

Lemma batch_equation_defects cs rows : batch_equation cs rows <-> defects cs rows = pt_O.
Proof.
  unfold batch_equation. rewrite mod_n, point_mul_G, <- psub_O.
  assert (H : psub (gmul (of_Z ord (batch_lhs cs rows))) (batch_rhs cs rows) = defects cs rows).
  { revert rows. induction cs as [|a cs IH]; intro rows; cbn [batch_lhs batch_rhs defects].
    - change (of_Z ord 0) with (@fzero (@ord Pr)). rewrite gmul_0. apply psub_O. reflexivity.
    - destruct rows as [|r rows]; cbn [batch_lhs batch_rhs defects].
      { change (of_Z ord 0) with (@fzero (@ord Pr)). rewrite gmul_0. apply psub_O. reflexivity. }
      rewrite <- IH. rewrite of_Z_add, of_Z_mul, !of_Z_fz, gmul_add.
      rewrite even_if, if_neg_pneg, <- even_pneg, mod_n, of_Z_mul, !of_Z_fz.
      rewrite !point_mul_pmul, pmul_mul. unfold defect, psub. rewrite gmul_mul.
      rewrite !pmul_add_r, pmul_neg_r, pmul_add_r, !neg_add, add_swap. reflexivity. }
  rewrite H. reflexivity.
Qed.

(** The coefficients used by the code. *)
Definition coeffs_from (seed : bytes) (i n : nat) : list (mscalar Pr) := map (batch_coeff seed) (seq i n).

Lemma batch_loop_defects seed rows : forall i lhs rhs,
  let (l, r) := batch_loop seed i rows lhs rhs in
  psub (gmul l) (psum r) = pt_add (psub (gmul lhs) (psum rhs)) (defects (coeffs_from seed i (length rows)) rows).
Proof.
  induction rows as [|r rows IH]; intros i lhs rhs; cbn [batch_loop length coeffs_from seq map defects].
  - rewrite add_O_r. reflexivity.
  - specialize (IH (S i) (fadd lhs (fmul (row_s r) (batch_coeff seed i)))
       (rhs ++ [pmul (batch_coeff seed i) (row_R r);
                pmul (fmul (batch_coeff seed i) (row_challenge r)) (even_point (row_pubkey r))])).
    destruct (batch_loop _ _ _ _ _) as [l rr]. rewrite IH. unfold coeffs_from. rewrite <- add_assoc. f_equal.
    rewrite psum_app, !psum_cons, psum_nil, add_O_r, gmul_add. unfold psub. rewrite !neg_add.
    rewrite add_swap. f_equal. unfold defect, psub. replace (fmul (row_s r) (batch_coeff seed i)) with (fmul (batch_coeff seed i) (row_s r)) by ring.
    rewrite gmul_mul, pmul_mul, pmul_add_r, pmul_neg_r, pmul_add_r, neg_add. reflexivity.
Qed.

Lemma verify_batch_iff rows :
  verify_batch rows = Ok tt <-> defects (coeffs_from (batch_seed rows) 0 (length rows)) rows = pt_O.
Proof.
  unfold verify_batch. pose proof (batch_loop_defects (batch_seed rows) rows 0%nat fzero []) as H.
  destruct (batch_loop _ _ _ _ _) as [l r]. rewrite gmul_0, psum_nil in H. unfold psub in H at 2.
  rewrite neg_O, !add_O_l in H. rewrite <- H, psub_O. destruct (pt_eqb (gmul l) (psum r)) eqn:E.
  - apply pt_eqb_eq in E. tauto.
  - split; [discriminate|]. intro HE. rewrite HE, (proj2 (pt_eqb_eq _ _)) in E by reflexivity. discriminate.
Qed.
Lemma verify_batch_cases rows : verify_batch rows = Ok tt \/ verify_batch rows = Err VE_BadSignature.
Proof. unfold verify_batch. destruct (batch_loop _ _ _ _ _). destruct (pt_eqb _ _); auto. Qed.

Lemma defects_valid cs rows : Forall row_valid rows -> defects cs rows = pt_O.
Proof.
  intro H. revert cs. induction H as [|r rows Hr _ IH]; intros [|a cs]; cbn [defects]; try reflexivity.
  apply row_valid_defect in Hr. rewrite Hr, pmul_O, IH, add_O_r. reflexivity.
Qed.

Lemma defects_app cs1 cs2 rows1 rows2 : length cs1 = length rows1 ->
  defects (cs1 ++ cs2) (rows1 ++ rows2) = pt_add (defects cs1 rows1) (defects cs2 rows2).
Proof.
  revert rows1. induction cs1 as [|a cs1 IH]; intros [|r rows1] H; cbn [length app defects] in *; try discriminate.
  - rewrite add_O_l. reflexivity.
  - rewrite IH by congruence. rewrite add_assoc. reflexivity.
Qed.

Lemma coeff_nz seed i : batch_coeff seed i <> fzero :> mscalar Pr.
Proof.
  destruct i as [|i]; cbn [batch_coeff].
  - intro H. apply (f_equal fz) in H. pose proof (scalar_nz (Pr := Pr) scalar_one) as H1. apply H1. apply fe_ext. exact H.
  - apply rng_scalar_nz.
Qed.

Lemma coeffs_split seed i a b :
  coeffs_from seed i (a + S b) = coeffs_from seed i a ++ batch_coeff seed (i + a) :: coeffs_from seed (S (i + a)) b.
Proof.
  unfold coeffs_from. replace (a + S b)%nat with (a + (1 + b))%nat by lia. rewrite !seq_app, !map_app. cbn [seq map app].
  rewrite Nat.add_1_r. reflexivity.
Qed.

(** One invalid row. *)
Lemma one_invalid rows1 r rows2 : Forall row_valid rows1 -> Forall row_valid rows2 -> ~ row_valid r ->
  verify_batch (rows1 ++ r :: rows2) = Err VE_BadSignature.
Proof.
  intros H1 H2 Hr. destruct (verify_batch_cases (rows1 ++ r :: rows2)) as [E|E]; [|exact E]. exfalso.
  apply verify_batch_iff in E. rewrite app_length in E. cbn [length] in E. rewrite coeffs_split in E.
  rewrite defects_app in E by (unfold coeffs_from; rewrite map_length, seq_length; reflexivity).
  cbn [defects] in E. rewrite !defects_valid, add_O_l, add_O_r in E by assumption.
  apply pmul_eq_O in E as [E|E]; [apply (coeff_nz _ _ E)|]. apply Hr, row_valid_defect, E.
Qed.

Lemma pmul_inj a b P : P <> pt_O -> pmul a P = pmul b P -> a = b.
Proof.
  intros HP H. assert (H' : pmul (fsub a b) P = pt_O) by (rewrite pmul_sub, H; apply psub_O; reflexivity).
  apply pmul_eq_O in H' as [H'|H']; [|contradiction].
  replace a with (fadd (fsub a b) b) by ring. rewrite H'. ring.
Qed.

(** For fixed other coefficients, at most one coefficient of an invalid row. *)
Lemma coefficient_unique cs1 a b cs2 rows1 r rows2 : length cs1 = length rows1 -> ~ row_valid r ->
  batch_equation (cs1 ++ a :: cs2) (rows1 ++ r :: rows2) ->
  batch_equation (cs1 ++ b :: cs2) (rows1 ++ r :: rows2) -> a = b.
Proof.
  intros HL Hr Ha Hb. apply batch_equation_defects in Ha. apply batch_equation_defects in Hb.
  rewrite defects_app in Ha, Hb by assumption. cbn [defects] in Ha, Hb. rewrite <- Hb in Ha.
  rewrite row_valid_defect in Hr. apply (pmul_inj _ _ _ Hr).
  apply (add_cancel_r _ _ (defects cs2 rows2)). rewrite (add_comm (defects cs1 rows1)), (add_comm _ (pt_add (pmul b _) _)) in Ha.
  apply add_cancel_r in Ha. exact Ha.
Qed.

(** *** The seed does not commit to the nonces of adaptor rows *)

Lemma rows_seed rows rows' : map row_challenge rows = map row_challenge rows' -> map row_s rows = map row_s rows' ->
  @batch_seed Pr rows = batch_seed rows'.
Proof.
  intros H1 H2. unfold batch_seed. f_equal. f_equal; [clear H2|clear H1].
  - revert rows' H1. induction rows as [|r rows IH]; intros [|r' rows'] H; cbn [map flat_map] in *; try discriminate; [reflexivity|].
    injection H as Hr Ht. rewrite Hr, (IH rows') by assumption. reflexivity.
  - revert rows' H2. induction rows as [|r rows IH]; intros [|r' rows'] H; cbn [map flat_map] in *; try discriminate; [reflexivity|].
    injection H as Hr Ht. rewrite Hr, (IH rows') by assumption. reflexivity.
Qed.

Lemma adaptor_row_of (pk : point Pr) msg s (A R : pt) : pt_odd A = false ->
  row_from_adaptor pk msg {| a_R := R; a_s := s |} (psub A R) =
  {| row_pubkey := pk; row_challenge := chal A pk msg; row_R := R; row_s := s |}.
Proof.
  intro Ho. unfold row_from_adaptor. cbn [a_R a_s].
  assert (E : pt_add R (psub A R) = A) by (unfold psub; rewrite add_comm, add_assoc, add_neg_l, add_O_r; reflexivity).
  rewrite E, Ho. reflexivity.
Qed.

(** Two invalid pre-signatures under any keys, messages and s values that pass. *)
Lemma two_invalid (pk1 pk2 : point Pr) msg1 msg2 s1 s2 (A1 A2 : pt) : pt_odd A1 = false -> pt_odd A2 = false ->
  exists R1 R2 T1 T2 : pt,
    let sg1 := {| a_R := R1; a_s := s1 |} in let sg2 := {| a_R := R2; a_s := s2 |} in
    pt_add R1 T1 = A1 /\ pt_add R2 T2 = A2 /\
    verify_single_adaptor pk1 sg1 msg1 T1 = Err VE_BadSignature /\
    verify_single_adaptor pk2 sg2 msg2 T2 = Err VE_BadSignature /\
    verify_batch [row_from_adaptor pk1 msg1 sg1 T1; row_from_adaptor pk2 msg2 sg2 T2] = Ok tt.
Proof.
  intros H1 H2.
  set (r1 := fun R => {| row_pubkey := pk1; row_challenge := chal A1 pk1 msg1; row_R := R; row_s := s1 |}).
  set (r2 := fun R => {| row_pubkey := pk2; row_challenge := chal A2 pk2 msg2; row_R := R; row_s := s2 |}).
  set (a := batch_coeff (batch_seed [r1 pt_O; r2 pt_O]) 1).
  set (R1 := psub (psub (gmul s1) (pmul (chal A1 pk1 msg1) (even_point pk1))) (gmul a)).
  set (R2 := psub (psub (gmul s2) (pmul (chal A2 pk2 msg2) (even_point pk2))) (gmul (fneg fone))).
  assert (D1 : defect (r1 R1) = gmul a).
  { unfold defect, r1, R1. cbn [row_s row_R row_challenge row_pubkey].
    destruct (dlog (pmul (chal A1 pk1 msg1) (even_point pk1))) as [x Hx]. rewrite Hx.
    rewrite <- !gmul_sub, <- gmul_add, <- gmul_sub. f_equal. ring. }
  assert (D2 : defect (r2 R2) = gmul (fneg fone)).
  { unfold defect, r2, R2. cbn [row_s row_R row_challenge row_pubkey].
    destruct (dlog (pmul (chal A2 pk2 msg2) (even_point pk2))) as [x Hx]. rewrite Hx.
    rewrite <- !gmul_sub, <- gmul_add, <- gmul_sub. f_equal. ring. }
  assert (E1 : row_from_adaptor pk1 msg1 {| a_R := R1; a_s := s1 |} (psub A1 R1) = r1 R1) by (apply adaptor_row_of, H1).
  assert (E2 : row_from_adaptor pk2 msg2 {| a_R := R2; a_s := s2 |} (psub A2 R2) = r2 R2) by (apply adaptor_row_of, H2).
  assert (HA : forall A R : pt, pt_add R (psub A R) = A)
    by (intros A R; unfold psub; rewrite add_comm, add_assoc, add_neg_l, add_O_r; reflexivity).
  assert (Hone : fneg fone <> fzero :> mscalar Pr).
  { intro H. apply (coeff_nz [] 0). cbn [batch_coeff]. replace (@fone (@ord Pr)) with (fneg (fneg (@fone (@ord Pr)))) by ring.
    rewrite H. ring. }
  exists R1, R2, (psub A1 R1), (psub A2 R2). cbv zeta. split; [apply HA|]. split; [apply HA|].
  split; [|split].
  - destruct (verify_adaptor_cases pk1 {| a_R := R1; a_s := s1 |} msg1 (psub A1 R1)) as [E|E]; [|exact E]. exfalso.
    assert (HV : row_valid (item_row (Encrypted pk1 msg1 {| a_R := R1; a_s := s1 |} (psub A1 R1))))
      by (apply item_row_valid; [exact I | exact E]).
    cbn [item_row] in HV. rewrite E1 in HV. apply row_valid_defect in HV. rewrite D1 in HV. apply gmul_eq_O in HV.
    apply (coeff_nz _ _ HV).
  - destruct (verify_adaptor_cases pk2 {| a_R := R2; a_s := s2 |} msg2 (psub A2 R2)) as [E|E]; [|exact E]. exfalso.
    assert (HV : row_valid (item_row (Encrypted pk2 msg2 {| a_R := R2; a_s := s2 |} (psub A2 R2))))
      by (apply item_row_valid; [exact I | exact E]).
    cbn [item_row] in HV. rewrite E2 in HV. apply row_valid_defect in HV. rewrite D2 in HV. apply gmul_eq_O in HV.
    contradiction.
  - rewrite E1, E2. apply verify_batch_iff. rewrite (rows_seed [r1 R1; r2 R2] [r1 pt_O; r2 pt_O]) by reflexivity.
    cbn [length coeffs_from seq map defects]. fold a. rewrite D1, D2, add_O_r. cbn [batch_coeff].
    rewrite pmul_1, <- gmul_mul, <- gmul_add. apply gmul_eq_O. ring.
Qed.
End Bip340Facts.
