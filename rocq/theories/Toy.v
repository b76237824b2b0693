(** A model of [prims_ok] and [tags_ok]: the curve y^2 = x^3 + 7 over the field of 43
    elements, whose group has prime order 31, with SHA-256 on short inputs.  Group
    elements are represented by their discrete logarithm to the base G = (2, 12);
    coordinates come from the table of multiples of G. *)
From Coq Require Import String Znumtheory.
From Verif Require Import Bytes BytesFacts Prims PrimsFacts Sha256 TaggedHashes SpecTags.
Open Scope Z_scope.

(** Coordinates of k*G for k = 0..30 (the entry for infinity is arbitrary). *)
Definition toy_table : list (Z * Z) :=
  [ (0, 0); (2, 12); (7, 7); (35, 21); (21, 18); (12, 12); (29, 31); (25, 18); (32, 40);
    (20, 40); (42, 7); (40, 25); (37, 36); (13, 21); (34, 40); (38, 21); (38, 22); (34, 3);
    (13, 22); (37, 7); (40, 18); (42, 36); (20, 3); (32, 3); (25, 25); (29, 12); (12, 31);
    (21, 25); (35, 22); (7, 36); (2, 31) ].
(** Entry [k] of the table. *)
Definition toy_coords (k : Z) : Z * Z := nth (Z.to_nat k) toy_table (0, 0).

(** Every finite entry is on the curve, and entry k+1 is entry k plus G by the
    chord-and-tangent rule, division being checked by multiplication. *)
Definition toy_step_ok (k : Z) : bool :=
  let (x1, y1) := toy_coords k in
  let (x2, y2) := toy_coords 1 in
  let (x3, y3) := toy_coords (k + 1) in
  (* slope lam with (x2 - x1) lam = y2 - y1, or 2 y1 lam = 3 x1^2 when doubling *)
  existsb (fun lam =>
    ((if k =? 1 then (2 * y1 * lam - 3 * x1 * x1) else ((x2 - x1) * lam - (y2 - y1))) mod 43 =? 0)
    && ((lam * lam - x1 - x2 - x3) mod 43 =? 0)
    && ((lam * (x1 - x3) - y1 - y3) mod 43 =? 0)) (map Z.of_nat (seq 0 43)).
Example toy_table_is_curve :
  forallb (fun k => let (x, y) := toy_coords (Z.of_nat k) in (y * y - x * x * x - 7) mod 43 =? 0) (seq 1 30)
  && forallb (fun k => toy_step_ok (Z.of_nat k)) (seq 1 29)
  && (let (x, y) := toy_coords 30 in (x =? 2) && (y =? 43 - 12)) = true.
Proof. reflexivity. Qed.

(** The integers modulo the toy order; [k] stands for the point k*G. *)
Definition F31 := fe 31.
(** The x coordinate in 32 bytes. *)
Definition toy_x (k : F31) : bytes := be_enc 32 (fst (toy_coords (fz k))).
(** The parity of y. *)
Definition toy_odd (k : F31) : bool := Z.odd (snd (toy_coords (fz k))).
(** All elements. *)
Definition toy_all : list F31 := map (fun i => of_Z 31 (Z.of_nat i)) (seq 0 31).
(** The point with even y and a given x. *)
Definition toy_lift (b : bytes) : option F31 :=
  find (fun k => negb (feqb k fzero) && negb (toy_odd k) && bytes_eqb (toy_x k) b) toy_all.
(** A quick stand-in for SHA-256 on long inputs (every tagged hash has at least 64 bytes of
    input), so that concrete runs stay cheap to check; the tags themselves, which are
    short, are hashed with SHA-256. *)
Definition toy_mix (b : bytes) : N :=
  fold_left (fun h x => N.land (N.lxor (h + N.shiftl h 5) (Byte.to_N x)) mask32) b 1000003%N.
(** The toy hash function. *)
Definition toy_hash (b : bytes) : bytes :=
  if (length b <? 60)%nat then sha256_fips b else repeat xff 28 ++ be_enc 4 (Z.of_N (toy_mix b)).
Lemma toy_hash_len b : length (toy_hash b) = 32%nat.
Proof.
  unfold toy_hash. destruct (_ <? _)%nat; [apply sha256_fips_len|].
  rewrite app_length, repeat_length, be_enc_length. reflexivity.
Qed.
(** A toy random number generator. *)
Definition toy_rng (seed : bytes) (i : nat) : positive :=
  Z.to_pos (1 + Z.of_N (toy_mix (seed ++ be_enc 8 (Z.of_nat i)))).

(** The toy curve with a given hash function. *)
Definition toy_prims (h : bytes -> bytes) : prims := {|
  pt := F31;
  pt_O := fzero;
  pt_G := fone;
  pt_add := fadd;
  pt_neg := fneg;
  pt_eqb := feqb;
  pt_odd := toy_odd;
  pt_x := toy_x;
  pt_lift := toy_lift;
  ord_m1 := 30;
  sha256 := h;
  rng := toy_rng;
  G_fin := eq_refl
|}.

Add Ring toy_ring : (fe_ring_theory (n := 31)).

Lemma toy_in_all (k : F31) : In k toy_all.
Proof.
  unfold toy_all. apply in_map_iff. exists (Z.to_nat (fz k)). pose proof (fz_range k).
  rewrite Z2Nat.id by lia. split; [apply of_Z_fz|]. apply in_seq. lia.
Qed.

(** Decide a statement about all group elements. *)
Lemma toy_forall (f : F31 -> bool) : forallb f toy_all = true -> forall k, f k = true.
Proof. intros H k. rewrite forallb_forall in H. apply H, toy_in_all. Qed.
Lemma toy_forall2 (f : F31 -> F31 -> bool) :
  forallb (fun k => forallb (f k) toy_all) toy_all = true -> forall k l, f k l = true.
Proof.
  intros H k l. pose proof (toy_forall _ H k) as Hk. cbv beta in Hk. exact (toy_forall _ Hk l).
Qed.

Lemma toy_pos_mul p (P : F31) : Pos.iter_op fadd p P = of_Z 31 (Zpos p * fz P).
Proof.
  induction p as [|p IH] using Pos.peano_ind.
  - cbn [Pos.iter_op]. rewrite Z.mul_1_l. symmetry. apply of_Z_fz.
  - rewrite Pos.iter_op_succ by (intros; ring). rewrite IH.
    replace (Zpos (Pos.succ p) * fz P) with (fz P + Zpos p * fz P) by lia.
    rewrite of_Z_add, of_Z_fz. reflexivity.
Qed.

Lemma toy_smul h k (P : F31) : @smul (toy_prims h) k P = of_Z 31 (k * fz P) :> F31.
Proof.
  destruct k as [|p|p]; cbn [smul pt_O pt_add pt_neg toy_prims].
  - rewrite Z.mul_0_l. reflexivity.
  - apply toy_pos_mul.
  - rewrite toy_pos_mul. replace (Zneg p * fz P) with (- (Zpos p * fz P)) by lia.
    rewrite of_Z_opp. reflexivity.
Qed.

Lemma prime_31 : prime 31.
Proof.
  apply prime_intro; [lia|]. intros n Hn. apply Zgcd_1_rel_prime.
  assert (H : forallb (fun k => Z.gcd (Z.of_nat k) 31 =? 1) (seq 1 30) = true) by reflexivity.
  rewrite forallb_forall in H. specialize (H (Z.to_nat n)). rewrite Z2Nat.id in H by lia.
  apply Z.eqb_eq, H. apply in_seq. lia.
Qed.

Lemma toy_prims_ok h : (forall b, length (h b) = 32%nat) -> prims_ok (toy_prims h).
Proof.
  intro Hh. constructor.
  - intros P Q R. change (fadd (fadd P Q) R = fadd P (fadd Q R) :> fe 31). ring.
  - intros P Q. change (fadd P Q = fadd Q P :> fe 31). ring.
  - intros P. change (fadd fzero P = P :> fe 31). ring.
  - intros P. change (fadd P (fneg P) = fzero :> fe 31). ring.
  - intros P Q. apply feqb_eq.
  - exact prime_31.
  - reflexivity.
  - apply feqb_eq. reflexivity.
  - intro P. exists (fz (P : F31)). refine (eq_trans _ (eq_sym (toy_smul h (fz (P : F31)) fone))).
    change (fz (@fone 31)) with 1. rewrite Z.mul_1_r. symmetry. apply of_Z_fz.
  - intros P HP.
    assert (H : (feqb P fzero || Bool.eqb (toy_odd (fneg P)) (negb (toy_odd P)))%bool = true)
      by (revert P HP; intros P _; revert P; apply toy_forall; reflexivity).
    apply orb_true_iff in H as [H|H]; [apply feqb_eq in H; contradiction|].
    apply eqb_prop, H.
  - assert (H : forall P, bytes_eqb (toy_x (fneg P)) (toy_x P) = true) by (apply toy_forall; reflexivity).
    intro P. apply bytes_eqb_eq, H.
  - assert (H : forall P Q, implb (bytes_eqb (toy_x P) (toy_x Q)) (feqb P fzero || feqb Q fzero || feqb P Q || feqb P (fneg Q)) = true)
      by (apply toy_forall2; vm_compute; reflexivity).
    intros P Q HP HQ Hx. specialize (H P Q). change (@pt_x (toy_prims h)) with toy_x in Hx.
    rewrite (proj2 (bytes_eqb_eq _ _) Hx) in H. cbn [implb] in H.
    apply orb_true_iff in H as [H|H]; [|right; apply feqb_eq, H].
    apply orb_true_iff in H as [H|H]; [|left; apply feqb_eq, H].
    apply orb_true_iff in H as [H|H]; apply feqb_eq in H; contradiction.
  - intro P. apply be_enc_length.
  - intros b P. change (@pt_lift (toy_prims h)) with toy_lift. unfold toy_lift. split.
    + intro H. apply find_some in H as [_ H]. apply andb_true_iff in H as [H H3].
      apply andb_true_iff in H as [H1 H2].
      split; [apply feqb_neq, negb_true_iff, H1|]. split; [apply negb_true_iff, H2 | apply bytes_eqb_eq, H3].
    + intros (H1 & H2 & H3). destruct (find _ _) as [Q|] eqn:E.
      * apply find_some in E as [_ H]. apply andb_true_iff in H as [H H3'].
        apply andb_true_iff in H as [H1' H2']. apply bytes_eqb_eq in H3'.
        assert (HU : forall P Q, implb (negb (feqb P fzero) && negb (toy_odd P) && negb (feqb Q fzero) && negb (toy_odd Q)
           && bytes_eqb (toy_x P) (toy_x Q)) (feqb P Q) = true) by (apply toy_forall2; vm_compute; reflexivity).
        specialize (HU Q P). rewrite H1', H2' in HU. apply feqb_neq in H1.
        change (@pt_O (toy_prims h)) with (@fzero 31) in H1. change (@pt_odd (toy_prims h)) with toy_odd in H2.
        change (@pt_x (toy_prims h)) with toy_x in H3.
        rewrite H1, H2 in HU. rewrite (proj2 (bytes_eqb_eq (toy_x Q) (toy_x P)) (eq_trans H3' (eq_sym H3))) in HU.
        cbn [negb andb implb] in HU. apply feqb_eq in HU. rewrite HU. reflexivity.
      * exfalso. pose proof (find_none _ _ E P (toy_in_all P)) as H. cbv beta in H.
        apply feqb_neq in H1. change (@pt_O (toy_prims h)) with (@fzero 31) in H1.
        change (@pt_odd (toy_prims h)) with toy_odd in H2. change (@pt_x (toy_prims h)) with toy_x in H3.
        rewrite H1, H2, H3, bytes_eqb_refl in H. discriminate.
  - exact Hh.
Qed.

(** With this hash. *)
#[global] Instance Toy : prims := toy_prims toy_hash.
#[global] Instance Toy_ok : prims_ok Toy := toy_prims_ok toy_hash toy_hash_len.

#[global] Instance Toy_tags : tags_ok Toy.
Proof. constructor; vm_compute; reflexivity. Qed.

(** Toy scalars and points by number. *)
Definition tsc (k : positive) : scalar Toy :=
  match not_zero (of_Z ord (Zpos k) : mscalar Toy) with Some s => s | None => scalar_one end.
(** The toy point number [k]. *)
Definition tpt (k : positive) : point Toy := base_mul (tsc k).

(** [toy_hash] values are almost never below the toy order.  A second instance reduces
    the hash of every long (tagged) input below 32, so that hash-to-scalar conversions
    which reject large values can be seen to succeed as well as to fail. *)
Definition sha256_low (b : bytes) : bytes :=
  if (length b <? 60)%nat then sha256_fips b else be_enc 32 (Z.of_N (toy_mix b) * 2654435769 / 134217728 mod 32).
Lemma sha256_low_len b : length (sha256_low b) = 32%nat.
Proof. unfold sha256_low. destruct (_ <? _)%nat; [apply sha256_fips_len | apply be_enc_length]. Qed.
(** The second instance. *)
Definition ToyLow : prims := toy_prims sha256_low.
Lemma ToyLow_ok : prims_ok ToyLow.
Proof. exact (toy_prims_ok sha256_low sha256_low_len). Qed.
Lemma ToyLow_tags : tags_ok ToyLow.
Proof. constructor; vm_compute; reflexivity. Qed.
(** Its scalars by number. *)
Definition lsc (k : positive) : scalar ToyLow :=
  match @not_zero ToyLow (of_Z _ (Zpos k)) with Some s => s | None => @scalar_one ToyLow end.
