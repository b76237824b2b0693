(** The points and operations of [Secp] are those of the Python code on integers. *)
From Coq Require Import String Znumtheory Zpow_facts Field.
From Verif Require Import Bytes BytesFacts Prims PrimsFacts Primality SecpPrimes Curve Cyclic Sha256 SpecTags SpecBIP327 SpecSecp Secp256k1.
Open Scope Z_scope.
Add Ring FpR : (fe_ring_theory (n := secp_p)).
Add Field FpF : Fp_field.
Notation oz := (of_Z secp_p).

(** The coordinates of a point. *)
Definition encr (P : rawpt) : py_point :=
  match P with Inf => None | Aff x y => Some (fz x, fz y) end.
(** A curve point as the reference's Python value. *)
Definition enc (P : spt) : py_point := encr (sp P).

Lemma py_p_pos : py_p = Zpos secp_p. Proof. reflexivity. Qed.
Lemma py_n_pos : py_n = Zpos (Pos.succ secp_n_m1). Proof. reflexivity. Qed.
Lemma fz_oz z : fz (oz z) = z mod py_p. Proof. rewrite fz_of_Z. reflexivity. Qed.
Lemma oz_mod z : oz (z mod py_p) = oz z.
Proof. apply of_Z_eq. rewrite py_p_pos. now rewrite Zmod_mod. Qed.
Lemma py_pow_mod a k : py_pow a k = (a ^ k) mod py_p.
Proof. unfold py_pow. now rewrite Zpow_mod_correct. Qed.
Lemma py_pow_range a k : 0 <= py_pow a k < py_p.
Proof. rewrite py_pow_mod. now apply Z.mod_pos_bound. Qed.
Lemma oz_pow a k : oz (py_pow a (Zpos k)) = fpow (oz a) k.
Proof.
  rewrite py_pow_mod, oz_mod, fpow_Z, fz_oz. apply of_Z_eq. rewrite py_p_pos. apply Zpower_mod. reflexivity.
Qed.
Lemma fpow_inv a : a <> fzero -> fpow a (secp_p - 2) = finv a.
Proof.
  intro H. pose proof (finv_l a H) as H1.
  assert (H2 : fmul a (fpow a (secp_p - 2)) = fone).
  { rewrite <- (fpow_1 a) at 1. rewrite <- fpow_add. change (1 + (secp_p - 2))%positive with (secp_p - 1)%positive. now apply ffermat. }
  revert H1 H2. generalize (fpow a (secp_p - 2)) (finv a). intros u v H1 H2.
  transitivity (fmul (fmul v a) u); [rewrite H1; ring|].
  transitivity (fmul v (fmul a u)); [ring|]. rewrite H2. ring.
Qed.
Lemma oz_pow_inv a : oz a <> fzero -> oz (py_pow a (py_p - 2)) = finv (oz a).
Proof. intro H. change (py_p - 2) with (Zpos (secp_p - 2)). rewrite oz_pow. now apply fpow_inv. Qed.
Lemma fz_eqb (a b : Fp) : (fz a =? fz b) = feqb a b.
Proof.
  destruct (feqb a b) eqn:E.
  - apply feqb_eq in E. subst. apply Z.eqb_refl.
  - apply Z.eqb_neq. intro H. apply fe_ext in H. apply feqb_eq in H. congruence.
Qed.

Lemma enc_inj P Q : enc P = enc Q -> P = Q.
Proof.
  destruct P as [[|x y] HP], Q as [[|x' y'] HQ]; unfold enc; cbn [sp encr]; intro H; try discriminate; apply spt_ext; [reflexivity|].
  injection H as H1 H2. apply fe_ext in H1, H2. now subst.
Qed.
Lemma enc_on P : py_on (enc P).
Proof.
  destruct P as [[|x y] HP]; unfold enc; cbn [sp encr py_on]; [exact I|].
  split; [apply fz_range|]. split; [apply fz_range|].
  apply on_iff in HP. cbn [on_curve] in HP. apply (f_equal fz) in HP. rewrite <- !fz_oz.
  rewrite of_Z_mul, of_Z_add, !of_Z_mul, !of_Z_fz. exact HP.
Qed.
Lemma enc_surj P : py_on P -> exists Q, enc Q = P.
Proof.
  destruct P as [[x y]|]; cbn [py_on]; [|intros _; exists spt_O; reflexivity].
  intros (Hx & Hy & H).
  assert (HC : on_curveb (Aff (oz x) (oz y)) = true).
  { apply on_iff. cbn [on_curve]. apply fe_ext. unfold seven. rewrite <- !of_Z_mul, <- of_Z_add, !fz_oz. exact H. }
  exists (Spt _ HC). unfold enc. cbn [sp encr]. rewrite !fz_oz, !Z.mod_small by assumption. reflexivity.
Qed.

(** The last two lines of [point_add]. *)
Definition py_third (l x1 y1 x2 : Z) : py_point :=
  let x3 := (l * l - x1 - x2) mod py_p in Some (x3, (l * (x1 - x3) - y1) mod py_p).
Lemma py_add_chord x1 y1 x2 y2 : (x1 =? x2) = false ->
  py_point_add (Some (x1, y1)) (Some (x2, y2)) = py_third (((y2 - y1) * py_pow (x2 - x1) (py_p - 2)) mod py_p) x1 y1 x2.
Proof. intro H. unfold py_point_add. rewrite H. reflexivity. Qed.
Lemma py_add_tangent x y :
  py_point_add (Some (x, y)) (Some (x, y)) = py_third ((3 * x * x * py_pow (2 * y) (py_p - 2)) mod py_p) x y x.
Proof. unfold py_point_add. rewrite !Z.eqb_refl. reflexivity. Qed.
Lemma py_add_opp x y1 y2 : (y1 =? y2) = false -> py_point_add (Some (x, y1)) (Some (x, y2)) = None.
Proof. intro H. unfold py_point_add. rewrite H, Z.eqb_refl. reflexivity. Qed.
Lemma third_enc l (x1 y1 x2 : Fp) :
  encr (third fmul fsub (oz l) x1 y1 x2) = py_third l (fz x1) (fz y1) (fz x2).
Proof.
  unfold third, py_third. cbv zeta. cbn [encr]. f_equal. f_equal.
  - rewrite <- fz_oz. f_equal. rewrite !of_Z_sub, of_Z_mul, !of_Z_fz. reflexivity.
  - rewrite <- fz_oz. f_equal. rewrite of_Z_sub, of_Z_mul, of_Z_sub, !of_Z_fz, oz_mod, !of_Z_sub, of_Z_mul, !of_Z_fz. reflexivity.
Qed.
Lemma chord_slope (x1 y1 x2 y2 : Fp) : x1 <> x2 ->
  fdiv (fsub y2 y1) (fsub x2 x1) = oz (((fz y2 - fz y1) * py_pow (fz x2 - fz x1) (py_p - 2)) mod py_p).
Proof.
  intro Hx. rewrite oz_mod, of_Z_mul, oz_pow_inv, !of_Z_sub, !of_Z_fz; [reflexivity|].
  rewrite of_Z_sub, !of_Z_fz. intro E. apply Hx. transitivity (fsub x2 (fsub x2 x1)); [ring | rewrite E; ring].
Qed.
Lemma not_opp (y : Fp) : y <> fzero -> y <> fneg y.
Proof. intros Hy E. pose proof (odd_fneg y Hy) as Ho. rewrite <- E in Ho. destruct (Z.odd (fz y)); discriminate. Qed.
Lemma two_y (y : Fp) : oz (2 * fz y) = fmul (fadd fone fone) y.
Proof. now rewrite of_Z_mul, of_Z_fz, oz2. Qed.
Lemma two_y_nz (y : Fp) : y <> fzero -> oz (2 * fz y) <> fzero.
Proof.
  intros Hy E. rewrite two_y in E. apply (not_opp y Hy).
  transitivity (fsub (fmul (fadd fone fone) y) y); [ring | rewrite E; ring].
Qed.
Lemma slope_regroup (x v : Fp) :
  fmul (fmul (fadd (fadd fone fone) fone) (fmul x x)) v = fmul (fmul (fmul (oz 3) x) x) v.
Proof. rewrite oz3. ring. Qed.
Lemma slope_num (x : Fp) (v : Z) : fmul (fmul (fmul (oz 3) x) x) (oz v) = oz (3 * fz x * fz x * v).
Proof. rewrite !of_Z_mul, !of_Z_fz. reflexivity. Qed.
Lemma slope_den (x y : Fp) : y <> fzero ->
  fdiv x (fmul (fadd fone fone) y) = fmul x (oz (py_pow (2 * fz y) (py_p - 2))).
Proof. intro Hy. rewrite (oz_pow_inv _ (two_y_nz y Hy)), two_y. reflexivity. Qed.
Lemma tangent_slope (x y : Fp) : y <> fzero ->
  fdiv (fmul (fadd (fadd fone fone) fone) (fmul x x)) (fmul (fadd fone fone) y)
  = oz ((3 * fz x * fz x * py_pow (2 * fz y) (py_p - 2)) mod py_p).
Proof.
  intro Hy. refine (eq_trans (slope_den _ y Hy) _). refine (eq_trans (slope_regroup _ _) _).
  refine (eq_trans (slope_num _ _) _). symmetry. apply oz_mod.
Qed.
Lemma encr_add p q : ron p -> ron q -> encr (radd p q) = py_point_add (encr p) (encr q).
Proof.
  destruct p as [|x1 y1]; [intros; destruct q; reflexivity|]. destruct q as [|x2 y2]; [reflexivity|].
  intros H1 H2. cbn [encr].
  destruct (pair_cases _ _ _ _ _ _ _ _ Fp_field seven feqb feqb_eq _ _ _ _ H1 H2) as [E|[(-> & -> & Hy)|N]].
  - cbn [popp] in E. assert (Ex : x2 = x1) by congruence. assert (Ey : y2 = fneg y1) by congruence. subst x2 y2.
    change (Aff x1 (fneg y1)) with (rneg (Aff x1 y1)).
    rewrite (padd_opp _ _ _ _ _ _ _ _ Fp_field feqb feqb_eq), py_add_opp; [reflexivity|].
    rewrite fz_eqb. destruct (feqb y1 (fneg y1)) eqn:E2; [exfalso|reflexivity]. apply feqb_eq in E2.
    exact (not_opp y1 (y_nz _ _ H1) E2).
  - rewrite (padd_tangent _ _ _ _ _ _ _ _ Fp_field feqb feqb_eq two_nz_p) by exact Hy.
    rewrite py_add_tangent, tangent_slope by exact Hy. apply third_enc.
  - rewrite (padd_chord _ _ _ _ _ _ feqb feqb_eq) by exact N.
    rewrite py_add_chord, chord_slope; [apply third_enc | exact N |].
    rewrite fz_eqb. destruct (feqb x1 x2) eqn:E; [|reflexivity]. apply feqb_eq in E. contradiction.
Qed.
Lemma enc_add P Q : enc (spt_add P Q) = py_point_add (enc P) (enc Q).
Proof. unfold enc, spt_add. cbn [sp]. apply encr_add; apply spt_on. Qed.
Lemma enc_neg P : enc (spt_neg P) = py_neg (enc P).
Proof.
  destruct P as [[|x y] HP]; [reflexivity|]. unfold enc, spt_neg. cbn [sp popp encr py_neg]. f_equal.
Qed.
Lemma enc_G : enc spt_G = py_G. Proof. reflexivity. Qed.

Notation szmul := (zmul spt_O spt_add spt_neg).
Notation zm f := (f spt_O spt_add spt_neg spt_assoc spt_comm spt_add_O spt_add_neg) (only parsing).
(** The loop of [point_mul] adds the multiple by the bits that are left. *)
Lemma mul_loop_enc k i m P R : 0 <= i -> 0 <= m < 2 ^ (i + Z.of_nat k) ->
  py_mul_loop k i m (enc P) (enc R) = enc (spt_add R (szmul (m / 2 ^ i) P)).
Proof.
  revert i P R. induction k as [|k IH]; intros i P R Hi Hm; cbn [py_mul_loop].
  - rewrite Z.add_0_r in Hm. rewrite Z.div_small by exact Hm. rewrite spt_comm. cbn [zmul]. now rewrite spt_add_O.
  - rewrite <- enc_add. assert (E : (if Z.testbit m i then py_point_add (enc R) (enc P) else enc R) = enc (if Z.testbit m i then spt_add R P else R)).
    { destruct (Z.testbit m i); [now rewrite enc_add | reflexivity]. }
    rewrite E, IH by (rewrite ?Nat2Z.inj_succ in Hm; try lia; replace (i + 1 + Z.of_nat k) with (i + Z.succ (Z.of_nat k)) by lia; exact Hm).
    f_equal. pose proof (Z.div_mod (m / 2 ^ i) 2 ltac:(lia)) as D.
    assert (Hd : m / 2 ^ (i + 1) = m / 2 ^ i / 2) by (rewrite Z.pow_add_r, Z.pow_1_r, Z.div_div by lia; reflexivity).
    rewrite Hd. set (q := m / 2 ^ i / 2) in *.
    assert (Hb : (m / 2 ^ i) mod 2 = Z.b2z (Z.testbit m i)).
    { symmetry. apply Z.testbit_spec'. exact Hi. }
    rewrite Hb in D. rewrite D. rewrite (zm zmul_add).
    assert (E2 : szmul (2 * q) P = szmul q (spt_add P P)).
    { replace (2 * q) with (q + q) by lia. rewrite (zm zmul_add). symmetry. apply (zm zmul_op). }
    rewrite E2. set (S := szmul q _). destruct (Z.testbit m i); cbn [Z.b2z].
    + change (szmul 1 P) with P. rewrite spt_assoc. f_equal. apply spt_comm.
    + change (szmul 0 P) with spt_O. f_equal. rewrite spt_comm. now rewrite spt_add_O.
Qed.
Lemma enc_mul P k : 0 <= k < 2 ^ 256 -> py_point_mul (enc P) k = enc (szmul k P).
Proof.
  intro H. unfold py_point_mul. change None with (enc spt_O). rewrite mul_loop_enc by (try lia; exact H).
  rewrite Z.pow_0_r, Z.div_1_r, spt_add_O. reflexivity.
Qed.

Lemma fz_fpow (a : Fp) k : fz (fpow a k) = py_pow (fz a) (Zpos k).
Proof.
  rewrite <- (of_Z_fz a) at 1. rewrite <- oz_pow, fz_oz. apply Z.mod_small, py_pow_range.
Qed.
Lemma rhs_enc (x : Fp) : (py_pow (fz x) 3 + 7) mod py_p = fz (fadd (fmul (fmul x x) x) seven).
Proof.
  change 3 with (Zpos 3). rewrite <- fz_fpow, <- fz_oz. f_equal. rewrite of_Z_add, of_Z_fz. unfold seven. f_equal.
  change (fpow x 3) with (fmul x (fmul x x)). ring.
Qed.
Lemma lift_raw (x y : Fp) :
  on_curveb (Aff x (if Z.odd (fz y) then fneg y else y)) = (py_pow (fz y) 2 =? fz (fadd (fmul (fmul x x) x) seven)).
Proof.
  change 2 with (Zpos 2). rewrite <- fz_fpow, fz_eqb. change (fpow y 2) with (fmul y y).
  cbn [on_curveb]. destruct (Z.odd (fz y)); [f_equal; ring | reflexivity].
Qed.
Lemma lift_enc (x y : Fp) :
  (if negb (py_pow (fz y) 2 =? fz (fadd (fmul (fmul x x) x) seven)) then None
   else Some (fz x, if Z.even (fz y) then fz y else py_p - fz y))
  = match mkpt (Aff x (if Z.odd (fz y) then fneg y else y)) with Some P => enc P | None => None end.
Proof.
  rewrite <- lift_raw, <- Z.negb_odd.
  destruct (on_curveb (Aff x (if Z.odd (fz y) then fneg y else y))) eqn:EC; cbn [negb].
  - destruct (mkpt_on _ EC) as (Q & HQ & ES). rewrite HQ. unfold enc. rewrite ES. cbn [encr]. f_equal. f_equal.
    destruct (Z.odd (fz y)) eqn:Eo; cbn [negb]; [|reflexivity]. rewrite fz_neg; [reflexivity|].
    intros ->. discriminate.
  - destruct (mkpt _) as [Q|] eqn:EQ; [exfalso|reflexivity]. apply mkpt_some in EQ.
    pose proof (sp_on Q) as HQ. rewrite EQ in HQ. congruence.
Qed.
Lemma enc_lift b : length b = 32%nat ->
  py_lift_x b = match spt_lift b with Some P => enc P | None => None end.
Proof.
  intro Hl. unfold py_lift_x, spt_lift. cbv zeta. rewrite Hl, Nat.eqb_refl. cbn [andb].
  rewrite Z.leb_antisym. change (Zpos secp_p) with py_p.
  destruct (be_dec b <? py_p) eqn:Eb; cbn [negb]; [|reflexivity]. apply Z.ltb_lt in Eb.
  pose proof (be_dec_range b) as Hb. set (x := oz (be_dec b)).
  assert (Ex : be_dec b = fz x) by (unfold x; rewrite fz_oz, Z.mod_small by lia; reflexivity).
  rewrite Ex, rhs_enc. change ((py_p + 1) / 4) with (Zpos quarter_p). rewrite <- fz_fpow. apply lift_enc.
Qed.

Lemma py_n_small : py_n < 2 ^ 256. Proof. reflexivity. Qed.
Lemma secp_tagged r tag m : @tagged_hash (Secp r) tag m = py_tagged_hash tag m.
Proof. reflexivity. Qed.
Lemma secp_schnorr r msg pk sig :
  py_schnorr_verify msg pk sig = true <-> @schnorr_verify (Secp r) msg pk sig = Ret true.
Proof.
  unfold py_schnorr_verify, schnorr_verify, py_check.
  destruct (length pk =? 32)%nat eqn:Hk; cbn [andb]; [|split; discriminate].
  destruct (length sig =? 64)%nat eqn:Hs; cbn [andb]; [|split; discriminate].
  apply Nat.eqb_eq in Hk, Hs. cbv zeta. rewrite (enc_lift pk Hk).
  change (@pt_lift (Secp r) pk) with (spt_lift pk).
  destruct (spt_lift pk) as [P|] eqn:EP; [|split; discriminate].
  assert (HP : exists q, enc P = Some q).
  { apply secp_lift_spec in EP as (HO & _). destruct P as [[|x y] H]; [exfalso; apply HO, spt_ext; reflexivity | eexists; reflexivity]. }
  destruct HP as [q Hq]. rewrite Hq. change (@n_ (Secp r)) with py_n.
  set (s := be_dec (firstn 32 (skipn 32 sig))). change (int_from_bytes (firstn 32 (skipn 32 sig))) with s.
  destruct (py_n <=? s) eqn:Es; [rewrite orb_true_r; split; discriminate|]. rewrite orb_false_r. apply Z.leb_gt in Es.
  rewrite secp_tagged. unfold int_from_bytes.
  generalize (py_tagged_hash "BIP0340/challenge" (firstn 32 sig ++ pk ++ msg)). intro hash.
  set (e := be_dec hash mod py_n).
  assert (He : 0 <= e < py_n) by (apply Z.mod_pos_bound; reflexivity).
  assert (Hs0 : 0 <= s) by apply be_dec_range.
  pose proof py_n_small as Hn.
  rewrite <- Hq, <- enc_G, !enc_mul, <- enc_add by lia.
  unfold point_mul. rewrite !secp_smul.
  change (@pt_add (Secp r)) with spt_add. change (@pt_G (Secp r)) with spt_G.
  set (R := spt_add (szmul s spt_G) (szmul (py_n - e) P)). clearbody R.
  set (rb := firstn 32 sig).
  assert (Hrb : length rb = 32%nat) by (unfold rb; rewrite firstn_length; lia).
  unfold is_infinite, has_even_y, xbytes. change (@pt_eqb (Secp r) R pt_O) with (spt_eqb R spt_O).
  change (@pt_odd (Secp r) R) with (spt_odd R). change (@pt_x (Secp r) R) with (spt_x R).
  destruct R as [[|x y] HR].
  - unfold enc. cbn [sp encr]. change (spt_eqb {| sp := Inf; sp_on := HR |} spt_O) with true. cbn [negb andb].
    destruct (py_p <=? be_dec rb); split; discriminate.
  - unfold enc. cbn [sp encr]. change (spt_eqb {| sp := Aff x y; sp_on := HR |} spt_O) with false. cbn [negb andb].
    unfold spt_odd, spt_x. cbn [sp]. rewrite Z.negb_odd.
    assert (E : bytes_eqb (be_enc 32 (fz x)) rb = (fz x =? be_dec rb)).
    { destruct (fz x =? be_dec rb) eqn:Ex.
      - apply Z.eqb_eq in Ex. rewrite Ex. apply bytes_eqb_eq. now apply be_enc_dec'.
      - destruct (bytes_eqb _ rb) eqn:Eb; [exfalso|reflexivity]. apply bytes_eqb_eq in Eb.
        apply Z.eqb_neq in Ex. apply Ex. rewrite <- Eb. symmetry. apply be_dec_enc_small, fz_32. }
    rewrite E. destruct (py_p <=? be_dec rb) eqn:Er.
    + apply Z.leb_le in Er. split; [discriminate|]. intro H.
      replace (fz x =? be_dec rb) with false in H; [rewrite andb_false_r in H; discriminate|].
      symmetry. apply Z.eqb_neq. pose proof (fz_range x). change (Zpos secp_p) with py_p in *. lia.
    + split; [now intros -> | congruence].
Qed.
