(** The primitives of the crate's dependencies for the real curve and hash:
    secp256k1 with the formulas of /repo/reference.py:19-79 and SHA-256.
    [Secp_ok] proves every law of [prims_ok] for it, so the laws that the theorems
    assume of the [secp] and [sha2] crates are facts about secp256k1 and SHA-256. *)
From Coq Require Import String Znumtheory Eqdep_dec Field.
From Verif Require Import Bytes BytesFacts Prims PrimsFacts Primality SecpPrimes Curve Cyclic Sha256 TaggedHashes SpecTags Toy.
Open Scope Z_scope.

(** /repo/reference.py:19-20 [p], [n]: field size and group order. *)
Definition secp_p : positive := 115792089237316195423570985008687907853269984665640564039457584007908834671663.
(** The order minus one, /repo/reference.py:20 [n]. *)
Definition secp_n_m1 : positive := 115792089237316195423570985008687907852837564279074904382605163141518161494336.

(** The field of p elements. *)
Notation Fp := (fe secp_p).
(** Powers. *)
Fixpoint fpow (a : Fp) (k : positive) : Fp :=
  match k with
  | xH => a
  | xO k => let h := fpow a k in fmul h h
  | xI k => let h := fpow a k in fmul a (fmul h h)
  end.
(** Euclid's algorithm: a guess of the inverse of [r1] modulo [r0]. *)
Fixpoint euclid (fuel : nat) (r0 r1 t0 t1 : Z) : Z :=
  match fuel with
  | O => t0
  | S f => if r1 =? 0 then t0 else
           let (q, r) := Z.div_eucl r0 r1 in euclid f r1 r t1 (t0 - q * t1)
  end.
(** Inverses, /repo/reference.py:53 [pow(., p - 2, p)]; the value is first looked for
    with Euclid's algorithm, which is quicker. *)
Definition finv (a : Fp) : Fp :=
  let c : Fp := of_Z secp_p (euclid 400 (Zpos secp_p) (fz a) 0 1) in
  if feqb (fmul c a) fone then c else fpow a (secp_p - 2).
(** Division, /repo/reference.py:53-55 (a product with an inverse). *)
Definition fdiv (a b : Fp) : Fp := fmul a (finv b).
(** The constant of the curve y^2 = x^3 + 7. *)
Definition seven : Fp := of_Z secp_p 7.

(** Curve points, with a boolean proof of the curve equation. *)
Notation rawpt := (@pnt Fp).
(** The curve equation, decided (/repo/reference.py:74-77). *)
Definition on_curveb (P : rawpt) : bool :=
  match P with
  | Inf => true
  | Aff x y => feqb (fmul y y) (fadd (fmul (fmul x x) x) seven)
  end.
(** Points of the curve, /repo/reference.py:22-26 [Point], with the point at infinity. *)
Record spt : Type := Spt { sp : rawpt; sp_on : on_curveb sp = true }.
(** A raw point, if it is on the curve. *)
Definition mkpt (P : rawpt) : option spt :=
  match on_curveb P as c return on_curveb P = c -> option spt with
  | true => fun H => Some (Spt P H)
  | false => fun _ => None
  end eq_refl.
Notation radd := (padd (fone : Fp) fadd fmul fsub fneg fdiv feqb).
Notation rneg := (popp (fneg : Fp -> Fp)).
Notation ron := (on_curve (fadd : Fp -> Fp -> Fp) fmul seven).

(** Equality of points, /repo/reference.py:52. *)
Definition raw_eqb (P Q : rawpt) : bool :=
  match P, Q with
  | Inf, Inf => true
  | Aff x y, Aff x' y' => feqb x x' && feqb y y'
  | _, _ => false
  end.

(** *** The field *)
Lemma p_prime : prime (Zpos secp_p). Proof. exact prime_secp_p. Qed.
Notation oz := (of_Z secp_p).
Add Ring FpR : (fe_ring_theory (n := secp_p)).

Lemma fpow_Z a k : fpow a k = oz (fz a ^ Zpos k).
Proof.
  induction k as [k IH|k IH|]; cbn [fpow].
  - rewrite IH. rewrite <- (of_Z_fz a) at 1. rewrite <- !of_Z_mul. f_equal.
    rewrite Pos2Z.inj_xI, Z.pow_add_r, Z.pow_1_r, Z.mul_comm by lia. f_equal. rewrite (Z.mul_comm 2), Z.pow_mul_r, Z.pow_2_r by lia. reflexivity.
  - rewrite IH, <- of_Z_mul. f_equal. rewrite Pos2Z.inj_xO, (Z.mul_comm 2), Z.pow_mul_r, Z.pow_2_r by lia. reflexivity.
  - rewrite Z.pow_1_r. symmetry. apply of_Z_fz.
Qed.
Lemma fpow_add a j k : fpow a (j + k) = fmul (fpow a j) (fpow a k).
Proof. rewrite !fpow_Z, <- of_Z_mul, Pos2Z.inj_add, Z.pow_add_r by lia. reflexivity. Qed.
Lemma fpow_1 a : fpow a 1 = a. Proof. reflexivity. Qed.
Lemma fpow_mulexp a j k : fpow a (j * k) = fpow (fpow a j) k.
Proof.
  induction k as [|k IH] using Pos.peano_ind; [now rewrite Pos.mul_1_r|].
  rewrite Pos.mul_succ_r, fpow_add, IH, <- Pos.add_1_l, fpow_add. reflexivity.
Qed.
Lemma fz_nz (a : Fp) : a <> fzero -> ~ (Zpos secp_p | fz a).
Proof.
  intros Ha D. apply Ha. apply fe_ext. unfold fzero. rewrite fz_of_Z, Zmod_0_l.
  apply Z.mod_divide in D; [|lia]. rewrite Z.mod_small in D; auto using fz_range.
Qed.
Lemma ffermat a : a <> fzero -> fpow a (secp_p - 1) = fone.
Proof.
  intro Ha. rewrite fpow_Z. apply of_Z_eq. change (Zpos (secp_p - 1)) with (Zpos secp_p - 1).
  rewrite (fermat _ _ p_prime (fz_nz a Ha)). reflexivity.
Qed.
Lemma finv_l a : a <> fzero -> fmul (finv a) a = fone.
Proof.
  intro Ha. unfold finv. destruct (feqb _ fone) eqn:E; [now apply feqb_eq|].
  rewrite <- (fpow_1 a) at 2. rewrite <- fpow_add. change (secp_p - 2 + 1)%positive with (secp_p - 1)%positive. now apply ffermat.
Qed.
Lemma Fp_field : field_theory (fzero : Fp) fone fadd fmul fsub fneg fdiv finv eq.
Proof.
  constructor; [apply fe_ring_theory | | reflexivity | exact finv_l].
  intro H. apply (f_equal fz) in H. vm_compute in H. discriminate.
Qed.
Add Field FpF : Fp_field.
Lemma two_nz_p : fadd fone fone <> (fzero : Fp).
Proof. intro H. apply (f_equal fz) in H. vm_compute in H. discriminate. Qed.
Lemma three_nz_p : fadd (fadd fone fone) fone <> (fzero : Fp).
Proof. intro H. apply (f_equal fz) in H. vm_compute in H. discriminate. Qed.
Lemma seven_nz : seven <> fzero.
Proof. intro H. apply (f_equal fz) in H. vm_compute in H. discriminate. Qed.

(** *** The group of points *)
Lemma on_iff P : on_curveb P = true <-> ron P.
Proof. destruct P; cbn [on_curveb on_curve]; [split; trivial | apply feqb_eq]. Qed.
Lemma spt_ext (P Q : spt) : sp P = sp Q -> P = Q.
Proof. destruct P as [P HP], Q as [Q HQ]. cbn [sp]. intros ->. f_equal. apply UIP_dec. decide equality. Qed.
Lemma spt_on (P : spt) : ron (sp P). Proof. apply on_iff, sp_on. Qed.

Lemma radd_on (P Q : spt) : on_curveb (radd (sp P) (sp Q)) = true.
Proof. apply on_iff. apply (padd_on _ _ _ _ _ _ _ _ Fp_field seven feqb feqb_eq two_nz_p); apply spt_on. Qed.
Lemma rneg_on (P : spt) : on_curveb (rneg (sp P)) = true.
Proof. apply on_iff. apply (popp_on _ _ _ _ _ _ _ _ Fp_field), spt_on. Qed.

(** The point at infinity, /repo/reference.py:22-23. *)
Definition spt_O : spt := Spt Inf eq_refl.
(** /repo/reference.py:45-57 [point_add]. *)
Definition spt_add (P Q : spt) : spt := Spt (radd (sp P) (sp Q)) (radd_on P Q).
(** /repo/reference.py:148-151 [point_negate]. *)
Definition spt_neg (P : spt) : spt := Spt (rneg (sp P)) (rneg_on P).
(** /repo/reference.py:52. *)
Definition spt_eqb (P Q : spt) : bool := raw_eqb (sp P) (sp Q).
(** /repo/reference.py:24 [G]. *)
Definition secp_Gx : Z := 55066263022277343669578718895168534326250603453777594175500187360389116729240.
(** /repo/reference.py:24 [G], second coordinate. *)
Definition secp_Gy : Z := 32670510020758816978083085130507043184471273380659243275938904335757337482424.
Lemma G_on : on_curveb (Aff (oz secp_Gx) (oz secp_Gy)) = true.
Proof. vm_compute. reflexivity. Qed.
(** /repo/reference.py:24 [G], as a point of the curve. *)
Definition spt_G : spt := Spt (Aff (oz secp_Gx) (oz secp_Gy)) G_on.
(** Parity of y and x-only serialization ([serialize_xonly] of infinity is zeros). *)
Definition spt_odd (P : spt) : bool := match sp P with Inf => false | Aff _ y => Z.odd (fz y) end.
(** [serialize_xonly]; /repo/reference.py:67-68, 37-39. *)
Definition spt_x (P : spt) : bytes := match sp P with Inf => zeros 32 | Aff x _ => be_enc 32 (fz x) end.
(** (p + 1) / 4. *)
Definition quarter_p : positive := 28948022309329048855892746252171976963317496166410141009864396001977208667916.
(** /repo/reference.py:70-78 [lift_x]. *)
Definition spt_lift (b : bytes) : option spt :=
  if (length b =? 32)%nat && (be_dec b <? Zpos secp_p) then
    let x : Fp := oz (be_dec b) in
    let y := fpow (fadd (fmul (fmul x x) x) seven) quarter_p in
    mkpt (Aff x (if Z.odd (fz y) then fneg y else y))
  else None.

(** secp256k1 and SHA-256, with any random number generator. *)
Definition Secp (r : bytes -> nat -> positive) : prims := {|
  pt := spt; pt_O := spt_O; pt_G := spt_G; pt_add := spt_add; pt_neg := spt_neg;
  pt_eqb := spt_eqb; pt_odd := spt_odd; pt_x := spt_x; pt_lift := spt_lift;
  ord_m1 := secp_n_m1; sha256 := sha256_fips; rng := r; G_fin := eq_refl
|}.

Lemma raw_eqb_eq P Q : raw_eqb P Q = true <-> P = Q.
Proof.
  destruct P as [|x y], Q as [|x' y']; cbn [raw_eqb]; split; intro H; try reflexivity; try discriminate.
  - apply andb_true_iff in H as [H1 H2]. apply feqb_eq in H1, H2. now subst.
  - injection H as -> ->. now rewrite !feqb_refl.
Qed.
Lemma spt_eqb_eq P Q : spt_eqb P Q = true <-> P = Q.
Proof. unfold spt_eqb. rewrite raw_eqb_eq. split; [apply spt_ext | now intros ->]. Qed.

Lemma spt_assoc P Q R : spt_add (spt_add P Q) R = spt_add P (spt_add Q R).
Proof.
  apply spt_ext. cbn [spt_add sp].
  apply (padd_assoc _ _ _ _ _ _ _ _ Fp_field seven feqb feqb_eq two_nz_p three_nz_p seven_nz); apply spt_on.
Qed.
Lemma spt_comm P Q : spt_add P Q = spt_add Q P.
Proof.
  apply spt_ext. cbn [spt_add sp].
  apply (padd_comm _ _ _ _ _ _ _ _ Fp_field seven feqb feqb_eq); apply spt_on.
Qed.
Lemma spt_add_O P : spt_add spt_O P = P.
Proof. apply spt_ext. reflexivity. Qed.
Lemma spt_add_neg P : spt_add P (spt_neg P) = spt_O.
Proof. apply spt_ext. cbn [spt_add spt_neg sp]. apply (padd_opp _ _ _ _ _ _ _ _ Fp_field feqb feqb_eq). Qed.

(** *** n * G = O: multiples of G in Jacobian coordinates *)
Definition red (x : Z) : Z := fold_red 256 4294968273 x.
Lemma oz_red x : oz (red x) = oz x.
Proof. apply of_Z_eq. exact (fold_red_mod 256 4294968273 x ltac:(lia)). Qed.

(** Jacobian coordinates (X, Y, Z) of the point (X / Z^2, Y / Z^3). *)
Definition jac : Type := Z * Z * Z.
(** Doubling. *)
Definition jdbl (P : jac) : jac :=
  let '(X, Y, Z) := P in
  let YY := red (Y * Y) in
  let S := 4 * red (X * YY) in
  let M := 3 * red (X * X) in
  let X' := red (M * M) - 2 * S in
  (X', red (M * (S - X')) - 8 * red (YY * YY), 2 * red (Y * Z)).
(** Adding the generator. *)
Definition jaddG (P : jac) : jac :=
  let '(X, Y, Z) := P in
  let ZZ := red (Z * Z) in
  let H := red (secp_Gx * ZZ) - X in
  let R := red (red (secp_Gy * Z) * ZZ) - Y in
  let HH := red (H * H) in
  let HHH := red (H * HH) in
  let V := red (X * HH) in
  let X' := red (R * R) - HHH - 2 * V in
  (X', red (R * (V - X')) - red (Y * HHH), red (Z * H)).
(** Multiples of the generator. *)
Fixpoint jmul (k : positive) : jac :=
  match k with
  | xH => (secp_Gx, secp_Gy, 1)
  | xO k => jdbl (jmul k)
  | xI k => jaddG (jdbl (jmul k))
  end.

(** [P] represents the point [Q]. *)
Definition rep (P : jac) (Q : rawpt) : Prop :=
  let '(X, Y, Z) := P in
  Q = Aff (fdiv (oz X) (fmul (oz Z) (oz Z))) (fdiv (oz Y) (fmul (fmul (oz Z) (oz Z)) (oz Z))).
(** The third coordinate as a field element. *)
Definition jz (P : jac) : Fp := oz (snd P).

Ltac push := rewrite ?of_Z_mul, ?of_Z_add, ?of_Z_sub, ?oz_red.
Lemma jdbl_z P : jz (jdbl P) = fmul (oz 2) (fmul (oz (snd (fst P))) (jz P)).
Proof. destruct P as [[X Y] Z]. unfold jz. cbn [jdbl snd fst]. now rewrite of_Z_mul, oz_red, of_Z_mul. Qed.
Lemma jaddG_z P : jz (jaddG P) = fmul (jz P) (fsub (fmul (oz secp_Gx) (fmul (jz P) (jz P))) (oz (fst (fst P)))).
Proof.
  destruct P as [[X Y] Z]. unfold jz. cbn [jaddG snd fst].
  now rewrite oz_red, of_Z_mul, of_Z_sub, oz_red, of_Z_mul, oz_red, of_Z_mul.
Qed.
Lemma fmul_nz (a b : Fp) : fmul a b <> fzero -> a <> fzero /\ b <> fzero.
Proof. intro H. split; intro E; apply H; rewrite E; ring. Qed.
Lemma oz2 : oz 2 = fadd fone fone. Proof. apply fe_ext. vm_compute. reflexivity. Qed.
Lemma oz3 : oz 3 = fadd (fadd fone fone) fone. Proof. apply fe_ext. vm_compute. reflexivity. Qed.
Lemma oz4 : oz 4 = fmul (oz 2) (oz 2). Proof. apply fe_ext. vm_compute. reflexivity. Qed.
Lemma oz8 : oz 8 = fmul (oz 2) (fmul (oz 2) (oz 2)). Proof. apply fe_ext. vm_compute. reflexivity. Qed.

Lemma jdbl_rep P Q : rep P Q -> jz (jdbl P) <> fzero -> rep (jdbl P) (radd Q Q).
Proof.
  intros HR HZ. rewrite jdbl_z in HZ. destruct P as [[X Y] Z]. unfold jz in HZ. cbn [snd fst] in HZ.
  apply fmul_nz in HZ as [H2 HZ]. apply fmul_nz in HZ as [HY HZ]. cbn [rep] in HR. subst Q.
  set (x := oz X) in *. set (y := oz Y) in *. set (z := oz Z) in *.
  assert (Hy : fdiv y (fmul (fmul z z) z) <> fzero).
  { intro E. apply HY. transitivity (fmul (fdiv y (fmul (fmul z z) z)) (fmul (fmul z z) z)); [field; exact HZ | rewrite E; ring]. }
  rewrite (padd_tangent _ _ _ _ _ _ _ _ Fp_field feqb feqb_eq two_nz_p) by exact Hy.
  unfold third. cbn [jdbl rep]. cbv zeta. rewrite !of_Z_sub, !of_Z_mul, !oz_red.
  rewrite ?of_Z_sub, ?of_Z_mul, ?oz_red. rewrite ?of_Z_sub, ?of_Z_mul, ?oz_red. rewrite ?of_Z_sub, ?of_Z_mul, ?oz_red. rewrite ?of_Z_sub, ?of_Z_mul, ?oz_red.
  fold x y z. rewrite oz8, oz4, oz3, oz2 in *. pose proof two_nz_p. f_equal; field; auto.
Qed.
Lemma jaddG_rep P Q : rep P Q -> jz (jaddG P) <> fzero -> rep (jaddG P) (radd Q (sp spt_G)).
Proof.
  intros HR HZ. rewrite jaddG_z in HZ. destruct P as [[X Y] Z]. unfold jz in HZ. cbn [snd fst] in HZ.
  apply fmul_nz in HZ as [HZ HH]. cbn [rep] in HR. subst Q. cbn [spt_G sp].
  set (x := oz X) in *. set (y := oz Y) in *. set (z := oz Z) in *. set (gx := oz secp_Gx) in *. set (gy := oz secp_Gy) in *.
  assert (Hx : fdiv x (fmul z z) <> gx).
  { intro E. apply HH. rewrite <- E. field. exact HZ. }
  rewrite (padd_chord _ _ _ _ _ _ feqb feqb_eq) by exact Hx.
  unfold third. cbn [jaddG rep]. cbv zeta.
  repeat rewrite ?of_Z_sub, ?of_Z_mul, ?oz_red.
  fold x y z gx gy. rewrite oz2. f_equal; field; auto.
Qed.
Notation szmul := (zmul spt_O spt_add spt_neg).
Lemma szmul_double k P : szmul (Zpos (xO k)) P = spt_add (szmul (Zpos k) P) (szmul (Zpos k) P).
Proof.
  rewrite <- (zmul_add spt_O spt_add spt_neg spt_assoc spt_comm spt_add_O spt_add_neg). f_equal; lia.
Qed.
Lemma szmul_double1 k P : szmul (Zpos (xI k)) P = spt_add (szmul (Zpos (xO k)) P) P.
Proof.
  change P with (szmul 1 P) at 3.
  rewrite <- (zmul_add spt_O spt_add spt_neg spt_assoc spt_comm spt_add_O spt_add_neg). f_equal; lia.
Qed.
Lemma jmul_rep k : jz (jmul k) <> fzero -> rep (jmul k) (sp (szmul (Zpos k) spt_G)).
Proof.
  induction k as [k IH|k IH|]; intro H.
  - cbn [jmul] in *. rewrite szmul_double1. cbn [spt_add sp]. apply jaddG_rep; [|exact H].
    rewrite jaddG_z in H. apply fmul_nz in H as [H _].
    rewrite szmul_double. cbn [spt_add sp]. apply jdbl_rep; [apply IH|exact H].
    rewrite jdbl_z in H. apply fmul_nz in H as [_ H]. apply fmul_nz in H as [_ H]. exact H.
  - cbn [jmul] in *. rewrite szmul_double. cbn [spt_add sp]. apply jdbl_rep; [apply IH|exact H].
    rewrite jdbl_z in H. apply fmul_nz in H as [_ H]. apply fmul_nz in H as [_ H]. exact H.
  - cbn [jmul rep szmul Pos.iter_op spt_G sp]. change (oz 1) with (fone : Fp). f_equal; field; apply (F_1_neq_0 Fp_field).
Qed.
(** (n - 1) G has the coordinates of -G. *)
Definition jac_is (P : jac) (x y : Z) : bool :=
  let '(X, Y, Z) := P in
  negb (Z mod Zpos secp_p =? 0) && ((X - red (x * red (Z * Z))) mod Zpos secp_p =? 0)
  && ((Y - red (y * red (Z * red (Z * Z)))) mod Zpos secp_p =? 0).
Lemma jac_is_rep P x y Q : jac_is P x y = true -> rep P Q -> Q = Aff (oz x) (oz y).
Proof.
  destruct P as [[X Y] Z]. cbn [jac_is rep]. intros H ->.
  apply andb_true_iff in H as [H H3]. apply andb_true_iff in H as [H1 H2].
  apply Z.eqb_eq in H2, H3. apply negb_true_iff, Z.eqb_neq in H1.
  assert (HZ : oz Z <> fzero) by (intro E; apply H1; apply (f_equal fz) in E; exact E).
  assert (E : forall a b, (a - b) mod Zpos secp_p = 0 -> oz a = oz b).
  { intros a b D. transitivity (fadd (oz (a - b)) (oz b)); [rewrite of_Z_sub; ring|].
    replace (oz (a - b)) with (fzero : Fp); [ring|]. apply fe_ext. rewrite fz_of_Z, D. reflexivity. }
  apply E in H2, H3. rewrite !oz_red, !of_Z_mul, !oz_red, !of_Z_mul in H2, H3. rewrite oz_red, of_Z_mul in H3.
  rewrite H2, H3. f_equal; field; exact HZ.
Qed.
Lemma jz_of P x y : jac_is P x y = true -> jz P <> fzero.
Proof.
  destruct P as [[X Y] Z]. cbn [jac_is]. unfold jz. cbn [snd]. intro H.
  apply andb_true_iff in H as [H _]. apply andb_true_iff in H as [H _]. apply negb_true_iff, Z.eqb_neq in H.
  intro E. apply H. apply (f_equal fz) in E. exact E.
Qed.
Lemma jmul_n_check : jac_is (jmul secp_n_m1) secp_Gx (- secp_Gy) = true.
Proof. vm_compute. reflexivity. Qed.
Lemma secp_G_ord : szmul (Zpos (Pos.succ secp_n_m1)) spt_G = spt_O.
Proof.
  pose proof (jac_is_rep _ _ _ _ jmul_n_check (jmul_rep _ (jz_of _ _ _ jmul_n_check))) as H.
  assert (E : szmul (Zpos secp_n_m1) spt_G = spt_neg spt_G).
  { apply spt_ext. rewrite H. cbn [spt_neg spt_G sp popp]. f_equal; apply of_Z_opp. }
  rewrite Pos2Z.inj_succ, <- Z.add_1_r.
  rewrite (zmul_succ spt_O spt_add spt_neg spt_assoc spt_comm spt_add_O spt_add_neg), E. apply spt_add_neg.
Qed.

(** *** No point has y = 0: -7 is not a cube *)
(** (p - 1) / 3. *)
Definition third_p : positive := 38597363079105398474523661669562635951089994888546854679819194669302944890554.
Lemma not_cube_check : ppow red (-7) third_p mod Zpos secp_p =? 1 = false.
Proof. vm_compute. reflexivity. Qed.

Lemma not_cube (x : Fp) : fadd (fmul (fmul x x) x) seven <> fzero.
Proof.
  intro H. assert (E : fmul (fmul x x) x = oz (-7)).
  { transitivity (fsub (fadd (fmul (fmul x x) x) seven) seven); [ring|]. rewrite H. apply fe_ext. vm_compute. reflexivity. }
  assert (Hx : x <> fzero).
  { intro E0. rewrite E0 in E. apply (f_equal fz) in E. vm_compute in E. discriminate. }
  assert (E3 : fpow x 3 = oz (-7)) by (rewrite <- E; cbn [fpow]; ring).
  assert (E1 : fpow (oz (-7)) third_p = fone).
  { rewrite <- E3, <- fpow_mulexp. change (3 * third_p)%positive with (secp_p - 1)%positive. now apply ffermat. }
  pose proof not_cube_check as HC. apply Z.eqb_neq in HC. apply HC.
  rewrite (ppow_mod (Zpos secp_p) red) by (try reflexivity; intro z; exact (fold_red_mod 256 4294968273 z ltac:(lia))).
  rewrite fpow_Z in E1. apply (f_equal fz) in E1. rewrite fz_of_Z in E1.
  rewrite Zpow_facts.Zpower_mod, fz_of_Z, Zmod_mod, <- Zpow_facts.Zpower_mod in E1 by reflexivity.
  rewrite E1. reflexivity.
Qed.
Lemma y_nz x y : ron (Aff x y) -> y <> fzero.
Proof. cbn [on_curve]. intros H ->. apply (not_cube x). rewrite <- H. ring. Qed.

Lemma fz_neg (y : Fp) : y <> fzero -> fz (fneg y) = Zpos secp_p - fz y.
Proof.
  intro Hy. pose proof (fz_range y) as Hr. unfold fneg. rewrite fz_of_Z.
  assert (fz y <> 0). { intro E. apply Hy. apply fe_ext. rewrite E. reflexivity. }
  replace (- fz y) with (Zpos secp_p - fz y + (-1) * Zpos secp_p) by lia. rewrite Z.mod_add by lia.
  apply Z.mod_small. lia.
Qed.
Lemma odd_fneg (y : Fp) : y <> fzero -> Z.odd (fz (fneg y)) = negb (Z.odd (fz y)).
Proof.
  intro Hy. rewrite fz_neg, Z.odd_sub by exact Hy. change (Z.odd (Zpos secp_p)) with true. now destruct (Z.odd (fz y)).
Qed.
Lemma fz_32 (x : Fp) : 0 <= fz x < 256 ^ Z.of_nat 32.
Proof. pose proof (fz_range x). split; [lia|]. apply Z.lt_trans with (Zpos secp_p); [lia | reflexivity]. Qed.

Lemma secp_odd_neg P : P <> spt_O -> spt_odd (spt_neg P) = negb (spt_odd P).
Proof.
  destruct P as [[|x y] HP]; intro H; [exfalso; apply H, spt_ext; reflexivity|].
  unfold spt_odd, spt_neg. cbn [sp popp]. apply odd_fneg. apply (y_nz x). now apply on_iff.
Qed.
Lemma secp_x_inj P Q : P <> spt_O -> Q <> spt_O -> spt_x P = spt_x Q -> P = Q \/ P = spt_neg Q.
Proof.
  destruct P as [[|x y] HP]; intro H; [exfalso; apply H, spt_ext; reflexivity|].
  destruct Q as [[|x' y'] HQ]; intro H'; [exfalso; apply H', spt_ext; reflexivity|].
  unfold spt_x. cbn [sp]. intro E. apply be_enc_inj in E; [|apply fz_32|apply fz_32]. apply fe_ext in E. subst x'.
  assert (C : y = y' \/ y = fneg y').
  { apply (same_x _ _ _ _ _ _ _ _ Fp_field seven feqb feqb_eq x); [apply (on_iff (Aff x y)) | apply (on_iff (Aff x y'))]; assumption. }
  destruct C as [->| ->]; [left | right]; apply spt_ext; reflexivity.
Qed.
Lemma mkpt_some P Q : mkpt P = Some Q -> sp Q = P.
Proof.
  unfold mkpt. generalize (eq_refl (on_curveb P)). generalize (on_curveb P) at 2 3.
  intros [|] E; [|discriminate]. intro H. injection H as <-. reflexivity.
Qed.
Lemma mkpt_on P : on_curveb P = true -> exists Q, mkpt P = Some Q /\ sp Q = P.
Proof.
  intro H. destruct (mkpt P) as [Q|] eqn:E; [exists Q; split; [reflexivity | now apply mkpt_some]|exfalso].
  revert E. unfold mkpt. generalize (eq_refl (on_curveb P)). generalize (on_curveb P) at 2 3.
  intros [|] E; [discriminate|]. congruence.
Qed.
Lemma secp_lift_spec b P : spt_lift b = Some P <-> P <> spt_O /\ spt_odd P = false /\ spt_x P = b.
Proof.
  unfold spt_lift. split.
  - destruct ((length b =? 32)%nat && (be_dec b <? Zpos secp_p)) eqn:E; [|discriminate].
    apply andb_true_iff in E as [Hl Hb]. apply Nat.eqb_eq in Hl. apply Z.ltb_lt in Hb.
    cbv zeta. set (y := fpow _ quarter_p). intro H. pose proof (mkpt_some _ _ H) as HP.
    pose proof (spt_on P) as HO. rewrite HP in HO. pose proof (y_nz _ _ HO) as Hy.
    split; [intros ->; discriminate|]. unfold spt_odd, spt_x. rewrite HP. split.
    + destruct (Z.odd (fz y)) eqn:Ho; [|exact Ho]. rewrite odd_fneg, Ho; [reflexivity|].
      intro E. apply Hy. rewrite E. ring.
    + rewrite fz_of_Z, Z.mod_small; [now apply be_enc_dec'|]. pose proof (be_dec_range b). lia.
  - intros (HO & Hodd & <-). destruct P as [[|x y] HP]; [exfalso; apply HO, spt_ext; reflexivity|].
    unfold spt_odd, spt_x in *. cbn [sp] in *.
    rewrite be_enc_length, be_dec_enc_small by apply fz_32. rewrite Nat.eqb_refl.
    pose proof (fz_range x) as Hr. replace (fz x <? Zpos secp_p) with true by (symmetry; apply Z.ltb_lt; lia).
    cbn [andb]. cbv zeta. rewrite of_Z_fz. pose proof (proj1 (on_iff _) HP) as HC. cbn [on_curve] in HC.
    rewrite <- HC. pose proof (y_nz x y HC) as Hy. set (r := fpow (fmul y y) quarter_p).
    assert (Hr2 : fmul r r = fmul y y).
    { unfold r. change (fmul y y) with (fpow y 2). rewrite <- fpow_mulexp, <- fpow_add.
      change (2 * quarter_p + 2 * quarter_p)%positive with ((secp_p - 1) + 2)%positive.
      rewrite fpow_add, ffermat by exact Hy. ring. }
    assert (Hc : (if Z.odd (fz r) then fneg r else r) = y).
    { assert (C : r = y \/ r = fneg y) by (apply (same_x _ _ _ _ _ _ _ _ Fp_field seven feqb feqb_eq x); [rewrite Hr2|]; exact HC).
      destruct C as [->| ->]; [now rewrite Hodd|]. rewrite odd_fneg, Hodd by exact Hy. cbn [negb]. ring. }
    rewrite Hc. destruct (mkpt_on (Aff x y) HP) as (Q & HQ & EQ). rewrite HQ. f_equal. apply spt_ext. exact EQ.
Qed.

(** Every point is a multiple of G: there are at most 2p + 1 < 3n points, and none
    of order two. *)
Definition spt_code (P : spt) : Z :=
  match sp P with Inf => 0 | Aff x y => 1 + 2 * fz x + Z.b2z (Z.odd (fz y)) end.
Lemma secp_code_inj P Q : spt_code P = spt_code Q -> P = Q.
Proof.
  destruct P as [[|x y] HP], Q as [[|x' y'] HQ]; unfold spt_code; cbn [sp]; intro E.
  - apply spt_ext. reflexivity.
  - pose proof (fz_range x'). destruct (Z.odd (fz y')); cbn [Z.b2z] in E; lia.
  - pose proof (fz_range x). destruct (Z.odd (fz y)); cbn [Z.b2z] in E; lia.
  - assert (Ex : fz x = fz x') by (destruct (Z.odd (fz y)), (Z.odd (fz y')); cbn [Z.b2z] in E; lia).
    assert (Eo : Z.odd (fz y) = Z.odd (fz y')) by (destruct (Z.odd (fz y)), (Z.odd (fz y')); cbn [Z.b2z] in E; try reflexivity; lia).
    apply fe_ext in Ex. subst x'. apply spt_ext. cbn [sp]. f_equal.
    pose proof (proj1 (on_iff _) HP) as HC. pose proof (proj1 (on_iff _) HQ) as HC'. cbn [on_curve] in HC, HC'.
    assert (C : y = y' \/ y = fneg y') by (apply (same_x _ _ _ _ _ _ _ _ Fp_field seven feqb feqb_eq x); assumption).
    destruct C as [C|C]; [exact C|]. exfalso. rewrite C, odd_fneg in Eo by (apply (y_nz x); exact HC').
    destruct (Z.odd (fz y')); discriminate.
Qed.
Lemma secp_code_range P : 0 <= spt_code P < 2 * Zpos secp_p + 1.
Proof.
  destruct P as [[|x y] HP]; unfold spt_code; cbn [sp]; [lia|]. pose proof (fz_range x).
  destruct (Z.odd (fz y)); cbn [Z.b2z]; lia.
Qed.
Lemma secp_no_order_2 P : spt_add P P = spt_O -> P = spt_O.
Proof.
  destruct P as [[|x y] HP]; intro H; [apply spt_ext; reflexivity|]. exfalso.
  apply (f_equal sp) in H. cbn [spt_add sp spt_O] in H.
  assert (Hy : y <> fzero) by (apply (y_nz x); now apply on_iff).
  rewrite (padd_tangent _ _ _ _ _ _ _ _ Fp_field feqb feqb_eq two_nz_p) in H by exact Hy. discriminate.
Qed.
Lemma secp_n_prime : prime (Zpos (Pos.succ secp_n_m1)).
Proof. exact prime_secp_n. Qed.
Lemma secp_gen P : exists k, P = szmul k spt_G.
Proof.
  apply (generated spt_O spt_add spt_neg spt_assoc spt_comm spt_add_O spt_add_neg spt_G (Zpos (Pos.succ secp_n_m1))
    secp_n_prime secp_G_ord) with (code := spt_code) (m := 2 * Zpos secp_p + 1).
  - discriminate.
  - exact secp_code_inj.
  - exact secp_code_range.
  - reflexivity.
  - exact secp_no_order_2.
  - reflexivity.
Qed.

Lemma secp_smul r k P : @smul (Secp r) k P = szmul k P.
Proof. now destruct k. Qed.

(** All the laws of [prims_ok] hold of secp256k1 with SHA-256. *)
Theorem Secp_ok r : prims_ok (Secp r).
Proof.
  constructor.
  - exact spt_assoc.
  - exact spt_comm.
  - exact spt_add_O.
  - exact spt_add_neg.
  - exact spt_eqb_eq.
  - exact secp_n_prime.
  - reflexivity.
  - rewrite secp_smul. exact secp_G_ord.
  - intro P. destruct (secp_gen P) as [k Hk]. exists k. rewrite secp_smul. exact Hk.
  - exact secp_odd_neg.
  - intros [[|x y] HP]; reflexivity.
  - exact secp_x_inj.
  - intros [[|x y] HP]; [reflexivity | apply be_enc_length].
  - exact secp_lift_spec.
  - exact sha256_fips_len.
Qed.
Lemma toy_hash_short b : (length b <? 60)%nat = true -> @sha256 Toy b = sha256_fips b.
Proof. intro H. change (toy_hash b = sha256_fips b). unfold toy_hash. now rewrite H. Qed.
Theorem Secp_tags r : tags_ok (Secp r).
Proof.
  destruct Toy_tags as [H1 H2 H3 H4 H5 H6 H7 H8 H9 H10].
  constructor;
  [exact (eq_trans (eq_sym (toy_hash_short (ascii_bytes "KeyAgg list") eq_refl)) H1)
  | exact (eq_trans (eq_sym (toy_hash_short (ascii_bytes "KeyAgg coefficient") eq_refl)) H2)
  | exact (eq_trans (eq_sym (toy_hash_short (ascii_bytes "MuSig/aux") eq_refl)) H3)
  | exact (eq_trans (eq_sym (toy_hash_short (ascii_bytes "MuSig/nonce") eq_refl)) H4)
  | exact (eq_trans (eq_sym (toy_hash_short (ascii_bytes "MuSig/noncecoef") eq_refl)) H5)
  | exact (eq_trans (eq_sym (toy_hash_short (ascii_bytes "BIP0340/aux") eq_refl)) H6)
  | exact (eq_trans (eq_sym (toy_hash_short (ascii_bytes "BIP0340/nonce") eq_refl)) H7)
  | exact (eq_trans (eq_sym (toy_hash_short (ascii_bytes "BIP0340/challenge") eq_refl)) H8)
  | exact (eq_trans (eq_sym (toy_hash_short (ascii_bytes "BIP0340/batch") eq_refl)) H9)
  | exact (eq_trans (eq_sym (toy_hash_short (ascii_bytes "TapTweak") eq_refl)) H10)].
Qed.
