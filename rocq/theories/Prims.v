(** What the crate takes from its dependencies ([secp], [sha2], [rand]),
    as a record of operations [prims] and a record of laws [prims_ok].
    Nothing here is an axiom: every theorem quantifies over all [prims]
    satisfying [prims_ok], and Toy.v exhibits a model of the laws. *)
From Coq Require Import Znumtheory.
From Verif Require Import Bytes.
Open Scope Z_scope.

(** Operations.
    - [pt] is [secp::MaybePoint] (the whole group, infinity included);
      [pt_odd]/[pt_x] are [parity()] and [serialize_xonly()] (for infinity they
      return whatever convention the library has), [pt_lift] is
      [Point::lift_x] on exactly 32 bytes.
    - [ord_m1] is the group order n minus one; n is [ord] below (at least 2).
    - [sha256] is the SHA-256 digest of a byte string.
    - [rng seed i] determines the i-th scalar drawn by
      [StdRng::from_seed(seed)] through [Scalar::random] (see [rng_scalar]).
    The only proof inside the record says that the generator is finite, so that
    it can be a [secp::Point].
    Dependencies of src/: [use secp::...] (e.g. src/key_agg.rs:1-8) and [sha2] (src/tagged_hashes.rs). *)
Class prims : Type := {
  pt : Type;
  pt_O : pt;
  pt_G : pt;
  pt_add : pt -> pt -> pt;
  pt_neg : pt -> pt;
  pt_eqb : pt -> pt -> bool;
  pt_odd : pt -> bool;
  pt_x : pt -> bytes;
  pt_lift : bytes -> option pt;
  ord_m1 : positive;
  sha256 : bytes -> bytes;
  rng : bytes -> nat -> positive;
  G_fin : pt_eqb pt_G pt_O = false
}.

(** The group order n. (Dependency [secp]; no line of src/.) *)
Definition ord {Pr : prims} : positive := Pos.succ ord_m1.

(** Multiplication of a group element by an integer, by double-and-add:
    [scalar * point]. (src/key_agg.rs:225, src/signing.rs:170, 182.) *)
Definition smul {Pr : prims} (k : Z) (P : pt) : pt :=
  match k with
  | Z0 => pt_O
  | Zpos p => Pos.iter_op pt_add p P
  | Zneg p => pt_neg (Pos.iter_op pt_add p P)
  end.

(** Laws assumed of the dependencies.
    No line of src/: this is the trusted behaviour of the dependencies. *)
Class prims_ok (Pr : prims) : Prop := {
  (* abelian group *)
  add_assoc : forall P Q R, pt_add (pt_add P Q) R = pt_add P (pt_add Q R);
  add_comm : forall P Q, pt_add P Q = pt_add Q P;
  add_O_l : forall P, pt_add pt_O P = P;
  add_neg_r : forall P, pt_add P (pt_neg P) = pt_O;
  pt_eqb_eq : forall P Q, pt_eqb P Q = true <-> P = Q;
  (* of prime order, generated by G; scalars fit 32 bytes *)
  ord_prime : prime (Zpos ord);
  ord_small : Zpos ord < 256 ^ 32;
  G_ord : smul (Zpos ord) pt_G = pt_O;
  G_gen : forall P, exists k, P = smul k pt_G;
  (* coordinates *)
  odd_neg : forall P, P <> pt_O -> pt_odd (pt_neg P) = negb (pt_odd P);
  x_neg : forall P, pt_x (pt_neg P) = pt_x P;
  x_inj : forall P Q, P <> pt_O -> Q <> pt_O -> pt_x P = pt_x Q -> P = Q \/ P = pt_neg Q;
  x_len : forall P, length (pt_x P) = 32%nat;
  lift_spec : forall b P,
    pt_lift b = Some P <-> P <> pt_O /\ pt_odd P = false /\ pt_x P = b;
  (* hash output size *)
  sha_len : forall m, length (sha256 m) = 32%nat
}.

(** *** Scalars *)

(** Integers in [0, n): [secp::MaybeScalar] when [n] is the group order.
    The boolean proof makes Leibniz equality coincide with equality of values.
    (Fields at src/key_agg.rs:37-41.) *)
Record fe (n : positive) : Type := Fe {
  fz : Z;
  fok : ((0 <=? fz) && (fz <? Zpos n))%bool = true
}.
Arguments Fe {n} fz fok.
Arguments fz {n} f.
Arguments fok {n} f.

Lemma of_Z_ok (n : positive) (z : Z) :
  ((0 <=? z mod Zpos n) && (z mod Zpos n <? Zpos n))%bool = true.
Proof.
  pose proof (Z.mod_pos_bound z (Zpos n) ltac:(lia)).
  apply andb_true_iff; split; [apply Z.leb_le | apply Z.ltb_lt]; lia.
Qed.

(** Reduction of an integer modulo n.
    (Inside the dependency; used by every scalar operation of src/.) *)
Definition of_Z (n : positive) (z : Z) : fe n := Fe (z mod Zpos n) (of_Z_ok n z).

(** Field operations of [MaybeScalar]/[Scalar] ([+], [-], [*], unary [-]).
    (E.g. src/signing.rs:86, 89.) *)
Definition fadd {n} (a b : fe n) : fe n := of_Z n (fz a + fz b).
(** [-] of scalars (src/key_agg.rs:257, src/signature.rs:200, 212). *)
Definition fsub {n} (a b : fe n) : fe n := of_Z n (fz a - fz b).
(** [*] of scalars (src/signing.rs:86, 89). *)
Definition fmul {n} (a b : fe n) : fe n := of_Z n (fz a * fz b).
(** Unary [-] of scalars (src/signature.rs:218). *)
Definition fneg {n} (a : fe n) : fe n := of_Z n (- fz a).
(** [MaybeScalar::Zero] (src/key_agg.rs:141). *)
Definition fzero {n} : fe n := of_Z n 0.
(** [MaybeScalar::one()] (src/key_agg.rs:506). *)
Definition fone {n} : fe n := of_Z n 1.
(** [==] of scalars (src/key_agg.rs:523, src/rounds.rs:39). *)
Definition feqb {n} (a b : fe n) : bool := fz a =? fz b.
(** [negate_if(choice)].
    (src/bip340.rs:41, 71, src/key_agg.rs:480, src/sig_agg.rs:37, src/signature.rs:191, src/signing.rs:76, 86.) *)
Definition fneg_if {n} (c : bool) (a : fe n) : fe n := if c then fneg a else a.
(** [Sum for MaybeScalar]. (src/sig_agg.rs:33-36.) *)
Definition fsum {n} (l : list (fe n)) : fe n := fold_left fadd l fzero.

(** [secp::MaybeScalar]. *)
Notation mscalar Pr := (fe (@ord Pr)).

Section Types.
Context {Pr : prims}.

(** [secp::Scalar]: a scalar in [1, n). (E.g. src/nonces.rs:425-426.) *)
Record scalar : Type := Scalar_ {
  sval :> mscalar Pr;
  s_nz : feqb sval fzero = false
}.

(** [MaybeScalar::into_option] / [not_zero()]. (src/key_agg.rs:416, 482.) *)
Definition not_zero (a : mscalar Pr) : option scalar :=
  match feqb a fzero as b return feqb a fzero = b -> option scalar with
  | true => fun _ => None
  | false => fun H => Some (Scalar_ a H)
  end eq_refl.

(** [Scalar::one()]. *)
Lemma one_nz : feqb (fone : mscalar Pr) fzero = false.
Proof.
  unfold feqb, fone, fzero, of_Z; simpl fz. unfold ord.
  rewrite Zmod_0_l, Z.mod_small by lia. reflexivity.
Qed.
(** [Scalar::one()] (src/bip340.rs:62, 290, src/nonces.rs:397, 401). *)
Definition scalar_one : scalar := Scalar_ fone one_nz.

(** [secp::Point]: a finite curve point. (E.g. src/key_agg.rs:22-42.) *)
Record point : Type := Point_ {
  pval :> pt;
  p_fin : pt_eqb pval pt_O = false
}.

(** [MaybePoint::into_option] / [not_inf()].
    (src/bip340.rs:169, src/key_agg.rs:124, 225, 251, src/signature.rs:190.) *)
Definition not_inf (P : pt) : option point :=
  match pt_eqb P pt_O as b return pt_eqb P pt_O = b -> option point with
  | true => fun _ => None
  | false => fun H => Some (Point_ P H)
  end eq_refl.

(** [Point::generator()] / [G]. (src/nonces.rs:640.) *)
Definition gen_point : point := Point_ pt_G G_fin.

(** Results that Rust's types say are finite ([Scalar * G], [-Point],
    [Point::to_even_y]) are turned into a [point] here.  The default is never
    used: Lemma [to_point_val] in PrimsFacts and its users show that the
    argument is finite in every use.
    (Types at src/nonces.rs:254, 501-502, src/key_agg.rs:622, src/signature.rs:92.) *)
Definition to_point (P : pt) : point :=
  match not_inf P with Some Q => Q | None => gen_point end.

(** [scalar * point] on [MaybeScalar] and [MaybePoint]. (src/signing.rs:170, 182.) *)
Definition pmul (k : mscalar Pr) (P : pt) : pt := smul (fz k) P.
(** [scalar * G] / [base_point_mul]. (src/key_agg.rs:225, 251, 408, 484.) *)
Definition gmul (k : mscalar Pr) : pt := pmul k pt_G.
(** [P - Q]. (src/key_agg.rs:251, 408, src/signature.rs:199, 215.) *)
Definition psub (P Q : pt) : pt := pt_add P (pt_neg Q).
(** [negate_if(choice)]. (src/key_agg.rs:408, src/signing.rs:182.) *)
Definition pneg_if (c : bool) (P : pt) : pt := if c then pt_neg P else P.
(** [Point::sum] / [MaybePoint::sum].
    (src/key_agg.rs:124, src/nonces.rs:596-597, src/bip340.rs:304.) *)
Definition psum (l : list pt) : pt := fold_left pt_add l pt_O.

(** [to_even_y]. (src/sig_agg.rs:46, src/signature.rs:92.) *)
Definition to_even_y (P : pt) : pt := pneg_if (pt_odd P) P.

(** [MaybeScalar::reduce_from(&[u8;32])].
    (src/bip340.rs:61, src/key_agg.rs:516, src/nonces.rs:396, 400, 623, src/signing.rs:34.) *)
Definition reduce_from (h : bytes) : mscalar Pr := of_Z ord (be_dec h).

(** [serialize()] of [Scalar]/[MaybeScalar]: 32 bytes big-endian.
    (src/nonces.rs:335, 659-660, src/key_agg.rs:570.) *)
Definition ser_scalar (a : mscalar Pr) : bytes := be_enc 32 (fz a).

(** [MaybeScalar::from_slice]/[try_from]: 32 bytes encoding an integer below n.
    (src/signature.rs:275, 317.) *)
Definition parse_mscalar (b : bytes) : option (mscalar Pr) :=
  if (length b =? 32)%nat && (be_dec b <? Zpos ord) then Some (of_Z ord (be_dec b)) else None.

(** [Scalar::from_slice]/[try_from]: the same, excluding zero.
    (src/key_agg.rs:597, src/nonces.rs:674-675, src/deterministic.rs:74.) *)
Definition parse_scalar (b : bytes) : option scalar :=
  match parse_mscalar b with Some a => not_zero a | None => None end.

(** [Point::serialize()]: SEC1 compressed form, 33 bytes.
    (src/key_agg.rs:495, 512, 575, src/nonces.rs:687-688.) *)
Definition ser_point (P : point) : bytes :=
  (if pt_odd P then x03 else x02) :: pt_x P.

(** [MaybePoint::serialize()]: the same, 33 zero bytes for infinity.
    (src/nonces.rs:616-617, 711-712, src/signature.rs:305.) *)
Definition ser_mpoint (P : pt) : bytes :=
  match not_inf P with
  | Some Q => ser_point Q
  | None => zeros 33
  end.

(** [Point::lift_x(&[u8; 32])]. (src/signature.rs:50.) *)
Definition lift_x (b : bytes) : option point :=
  match pt_lift b with Some P => not_inf P | None => None end.

(** Unary minus on [Point]. (src/key_agg.rs:622, src/sig_agg.rs:42.) *)
Definition neg_point (P : point) : point := to_point (pt_neg P).
(** [Point::to_even_y]. (src/sig_agg.rs:46, src/signature.rs:92, src/bip340.rs:125, 160, 295.) *)
Definition even_point (P : point) : point := to_point (to_even_y P).
(** [Scalar * G] / [Scalar::base_point_mul]. (src/nonces.rs:254, 501-502, src/bip340.rs:40.) *)
Definition base_mul (k : scalar) : point := to_point (gmul k).

(** [Point::from_slice]: 33-byte SEC1 compressed form with prefix 02 or 03.
    (src/key_agg.rs:615, src/nonces.rs:698-699.) *)
Definition parse_point (b : bytes) : option point :=
  if negb (length b =? 33)%nat then None else
  match b with
  | h :: xb =>
      match lift_x xb with
      | None => None
      | Some P =>
          if Byte.eqb h x02 then Some P
          else if Byte.eqb h x03 then Some (neg_point P)
          else None
      end
  | [] => None
  end.

(** [MaybePoint::from_slice]: the same, 33 zero bytes being infinity.
    (src/nonces.rs:722-723, src/signature.rs:312-319.) *)
Definition parse_mpoint (b : bytes) : option pt :=
  if bytes_eqb b (zeros 33) then Some pt_O
  else match parse_point b with Some P => Some (pval P) | None => None end.

(** The i-th scalar drawn by [Scalar::random] from [StdRng::from_seed(seed)]:
    some value in [1, n); every function into that range arises from some [rng].
    (src/bip340.rs:282, 292.) *)
Definition rng_scalar (seed : bytes) (i : nat) : mscalar Pr :=
  of_Z ord (1 + Zpos (rng seed i) mod (Zpos ord - 1)).

End Types.
Arguments scalar Pr : clear implicits.
Arguments point Pr : clear implicits.
