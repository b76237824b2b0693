(** Lemmas about scalars and the group. *)
From Coq Require Import Znumtheory Eqdep_dec Ring Permutation.
From Verif Require Import Bytes BytesFacts Prims.
Open Scope Z_scope.

(** *** Scalars modulo n *)
Section Fe.
Context {n : positive}.

Lemma fe_ext (a b : fe n) : fz a = fz b -> a = b.
Proof.
  destruct a as [a Ha], b as [b Hb]; simpl; intros ->.
  f_equal. apply UIP_dec. decide equality.
Qed.

Lemma fz_range (a : fe n) : 0 <= fz a < Zpos n.
Proof.
  destruct a as [a Ha]; simpl. apply andb_true_iff in Ha as [H1 H2].
  apply Z.leb_le in H1. apply Z.ltb_lt in H2. lia.
Qed.

Lemma fz_of_Z z : fz (of_Z n z) = z mod Zpos n.
Proof. reflexivity. Qed.

Lemma of_Z_fz (a : fe n) : of_Z n (fz a) = a.
Proof. apply fe_ext. rewrite fz_of_Z, Z.mod_small; auto using fz_range. Qed.

Lemma of_Z_eq y z : y mod Zpos n = z mod Zpos n -> of_Z n y = of_Z n z.
Proof. intro H. apply fe_ext. rewrite !fz_of_Z. exact H. Qed.

Lemma of_Z_add y z : of_Z n (y + z) = fadd (of_Z n y) (of_Z n z).
Proof. apply fe_ext; unfold fadd; rewrite !fz_of_Z. apply Zplus_mod. Qed.
Lemma of_Z_sub y z : of_Z n (y - z) = fsub (of_Z n y) (of_Z n z).
Proof. apply fe_ext; unfold fsub; rewrite !fz_of_Z. apply Zminus_mod. Qed.
Lemma of_Z_mul y z : of_Z n (y * z) = fmul (of_Z n y) (of_Z n z).
Proof. apply fe_ext; unfold fmul; rewrite !fz_of_Z. apply Zmult_mod. Qed.
Lemma of_Z_opp z : of_Z n (- z) = fneg (of_Z n z).
Proof.
  apply fe_ext; unfold fneg; rewrite !fz_of_Z.
  change (- z) with (0 - z). change (- (z mod Zpos n)) with (0 - z mod Zpos n).
  rewrite (Zminus_mod 0 z), (Zminus_mod 0 (z mod Zpos n)), Zmod_mod. reflexivity.
Qed.
Lemma of_Z_mod z : of_Z n (z mod Zpos n) = of_Z n z.
Proof. apply of_Z_eq. apply Zmod_mod. Qed.
Lemma of_Z_n : of_Z n (Zpos n) = fzero.
Proof. apply of_Z_eq. rewrite Z_mod_same_full, Zmod_0_l. reflexivity. Qed.

Lemma fe_ring_theory :
  ring_theory (fzero : fe n) fone fadd fmul fsub fneg eq.
Proof.
  assert (R : forall a : fe n, exists z, a = of_Z n z)
    by (intro a; exists (fz a); symmetry; apply of_Z_fz).
  constructor; intros;
    repeat match goal with a : fe n |- _ =>
      let z := fresh "z" in destruct (R a) as [z ->] end;
    unfold fzero, fone;
    rewrite <- ?of_Z_opp, <- ?of_Z_mul, <- ?of_Z_add, <- ?of_Z_sub;
    rewrite <- ?of_Z_opp, <- ?of_Z_mul, <- ?of_Z_add, <- ?of_Z_sub;
    f_equal; ring.
Qed.

Lemma feqb_eq (a b : fe n) : feqb a b = true <-> a = b.
Proof.
  unfold feqb. rewrite Z.eqb_eq. split; [apply fe_ext | congruence].
Qed.
Lemma feqb_neq (a b : fe n) : feqb a b = false <-> a <> b.
Proof.
  unfold feqb. rewrite Z.eqb_neq. split; intros H E; apply H; [congruence | apply fe_ext; auto].
Qed.
Lemma feqb_refl (a : fe n) : feqb a a = true.
Proof. apply feqb_eq; reflexivity. Qed.
Lemma fe_eq_dec (a b : fe n) : {a = b} + {a <> b}.
Proof.
  destruct (feqb a b) eqn:E; [left; apply feqb_eq | right; apply feqb_neq]; assumption.
Qed.

Add Ring FeRing : fe_ring_theory.

Lemma fneg_if_mul c (a b : fe n) : fmul (fneg_if c a) b = fneg_if c (fmul a b).
Proof. destruct c; cbn [fneg_if]; ring. Qed.

Lemma fsum_app_acc l a : fold_left fadd l a = fadd a (fsum l) :> fe n.
Proof.
  revert a; induction l as [|x l IH]; intro a; unfold fsum; cbn [fold_left]; [ring|].
  rewrite IH, (IH (fadd fzero x)). ring.
Qed.
Lemma fsum_nil : fsum [] = fzero :> fe n.
Proof. reflexivity. Qed.
Lemma fsum_cons a l : fsum (a :: l) = fadd a (fsum l) :> fe n.
Proof. unfold fsum at 1; cbn [fold_left]. rewrite fsum_app_acc. ring. Qed.
Lemma fsum_app l m : fsum (l ++ m) = fadd (fsum l) (fsum m) :> fe n.
Proof.
  induction l as [|a l IH]; simpl; [rewrite fsum_nil; ring|].
  rewrite !fsum_cons, IH. ring.
Qed.
Lemma fsum_perm (l m : list (fe n)) : Permutation l m -> fsum l = fsum m.
Proof.
  induction 1; rewrite ?fsum_cons; try ring; try congruence.
Qed.
Lemma fsum_map_mul {A} (f : A -> fe n) c l :
  fsum (map (fun a => fmul c (f a)) l) = fmul c (fsum (map f l)).
Proof.
  induction l as [|a l IH]; simpl; [rewrite !fsum_nil; ring|].
  rewrite !fsum_cons, IH. ring.
Qed.
Lemma fsum_map_add {A} (f g : A -> fe n) l :
  fsum (map (fun a => fadd (f a) (g a)) l) = fadd (fsum (map f l)) (fsum (map g l)).
Proof.
  induction l as [|a l IH]; simpl; [rewrite !fsum_nil; ring|].
  rewrite !fsum_cons, IH. ring.
Qed.

(** Field facts for a prime modulus. *)
Hypothesis n_prime : prime (Zpos n).

Lemma fmul_integral (a b : fe n) : fmul a b = fzero -> a = fzero \/ b = fzero.
Proof.
  intro H. apply (f_equal fz) in H. unfold fmul, fzero in H. rewrite !fz_of_Z, Zmod_0_l in H.
  apply Z.mod_divide in H; [|lia].
  apply prime_mult in H; [|assumption].
  assert (D : forall c : fe n, (Zpos n | fz c) -> c = fzero).
  { intros c Hc. apply fe_ext. unfold fzero. rewrite fz_of_Z, Zmod_0_l.
    pose proof (fz_range c) as Hr. apply Z.mod_divide in Hc; [|lia].
    rewrite Z.mod_small in Hc; auto. }
  destruct H as [H|H]; [left|right]; auto.
Qed.

Lemma fmul_cancel_l (a b c : fe n) : a <> fzero -> fmul a b = fmul a c -> b = c.
Proof.
  intros Ha H.
  assert (E : fmul a (fsub b c) = fzero)
    by (replace (fmul a (fsub b c)) with (fsub (fmul a b) (fmul a c)) by ring; rewrite H; ring).
  apply fmul_integral in E as [E|E]; [contradiction|].
  replace b with (fadd (fsub b c) c) by ring. rewrite E. ring.
Qed.

Lemma finv_exists (a : fe n) : a <> fzero -> exists b, fmul a b = fone.
Proof.
  intro Ha.
  assert (Hrp : rel_prime (fz a) (Zpos n)).
  { apply rel_prime_sym. apply prime_rel_prime; [assumption|].
    intro D. apply Ha. apply fe_ext. unfold fzero. rewrite fz_of_Z, Zmod_0_l.
    apply Z.mod_divide in D; [|lia]. rewrite Z.mod_small in D; auto using fz_range. }
  apply rel_prime_bezout in Hrp. destruct Hrp as [u v Huv].
  exists (of_Z n u). apply fe_ext. unfold fmul, fone. rewrite !fz_of_Z.
  rewrite Zmult_mod_idemp_r. rewrite Z.mul_comm.
  rewrite <- Huv. rewrite Z_mod_plus_full. reflexivity.
Qed.

Lemma fadd_cancel_l (a b c : fe n) : fadd a b = fadd a c -> b = c.
Proof.
  intro H. replace b with (fsub (fadd a b) a) by ring. rewrite H. ring.
Qed.

End Fe.

(** *** The group *)
Section Group.
Context {Pr : prims} {PO : prims_ok Pr}.

Lemma pt_eqb_refl P : pt_eqb P P = true.
Proof. apply pt_eqb_eq; reflexivity. Qed.
Lemma pt_eqb_neq P Q : pt_eqb P Q = false <-> P <> Q.
Proof.
  destruct (pt_eqb P Q) eqn:E.
  - apply pt_eqb_eq in E. split; intro H; [discriminate | contradiction].
  - split; intro H; [|reflexivity]. intros ->. rewrite pt_eqb_refl in E. discriminate.
Qed.
Lemma pt_eq_dec (P Q : pt) : {P = Q} + {P <> Q}.
Proof.
  destruct (pt_eqb P Q) eqn:E; [left; apply pt_eqb_eq | right; apply pt_eqb_neq]; assumption.
Qed.

Lemma add_O_r P : pt_add P pt_O = P.
Proof. rewrite add_comm. apply add_O_l. Qed.
Lemma add_neg_l P : pt_add (pt_neg P) P = pt_O.
Proof. rewrite add_comm. apply add_neg_r. Qed.
Lemma add_cancel_l P Q R : pt_add P Q = pt_add P R -> Q = R.
Proof.
  intro H. rewrite <- (add_O_l Q), <- (add_O_l R), <- (add_neg_l P), !add_assoc, H. reflexivity.
Qed.
Lemma neg_unique P Q : pt_add P Q = pt_O -> Q = pt_neg P.
Proof. intro H. apply (add_cancel_l P). rewrite H, add_neg_r. reflexivity. Qed.
Lemma neg_O : pt_neg pt_O = pt_O.
Proof. symmetry. apply neg_unique. apply add_O_l. Qed.
Lemma neg_neg P : pt_neg (pt_neg P) = P.
Proof. symmetry. apply neg_unique. apply add_neg_l. Qed.
Lemma neg_add P Q : pt_neg (pt_add P Q) = pt_add (pt_neg P) (pt_neg Q).
Proof.
  symmetry. apply neg_unique.
  rewrite (add_comm P Q), add_assoc, <- (add_assoc P), add_neg_r, add_O_l, add_neg_r.
  reflexivity.
Qed.
Lemma neg_eq_O P : pt_neg P = pt_O <-> P = pt_O.
Proof.
  split; intro H; [rewrite <- (neg_neg P), H; apply neg_O | rewrite H; apply neg_O].
Qed.
Lemma neg_inj P Q : pt_neg P = pt_neg Q -> P = Q.
Proof. intro H. rewrite <- (neg_neg P), H. apply neg_neg. Qed.
Lemma psub_eq_O P Q : psub P Q = pt_O <-> P = Q.
Proof.
  unfold psub; split; intro H.
  - apply neg_inj. apply neg_unique in H. rewrite H. reflexivity.
  - rewrite H. apply add_neg_r.
Qed.

Notation pos_mul := (Pos.iter_op pt_add).

Lemma pos_mul_succ p P : pos_mul (Pos.succ p) P = pt_add P (pos_mul p P).
Proof. apply Pos.iter_op_succ. intros; symmetry; apply add_assoc. Qed.

Lemma smul_succ k P : smul (k + 1) P = pt_add P (smul k P).
Proof.
  destruct k as [|p|p].
  - simpl. symmetry. apply add_O_r.
  - simpl. rewrite <- pos_mul_succ, Pos.add_1_r. reflexivity.
  - destruct (Pos.eq_dec p 1) as [->|Hp].
    + simpl. symmetry. apply add_neg_r.
    + rewrite <- (Pos.succ_pred p) by assumption.
      replace (Zneg (Pos.succ (Pos.pred p)) + 1) with (Zneg (Pos.pred p)) by lia.
      simpl. rewrite pos_mul_succ, neg_add, <- add_assoc, add_neg_r, add_O_l. reflexivity.
Qed.

Lemma smul_pred k P : smul (k - 1) P = pt_add (smul k P) (pt_neg P).
Proof.
  replace k with ((k - 1) + 1) at 2 by lia.
  rewrite smul_succ, add_comm, <- add_assoc, add_neg_l, add_O_l. reflexivity.
Qed.

Lemma smul_0 P : smul 0 P = pt_O.
Proof. reflexivity. Qed.
Lemma smul_1 P : smul 1 P = P.
Proof. reflexivity. Qed.

Lemma smul_add j k P : smul (j + k) P = pt_add (smul j P) (smul k P).
Proof.
  revert j. apply (Z.bi_induction (fun j => smul (j + k) P = pt_add (smul j P) (smul k P))).
  - intros x y ->. reflexivity.
  - simpl. symmetry. apply add_O_l.
  - intro j. split; intro H.
    + replace (Z.succ j + k) with ((j + k) + 1) by lia.
      replace (Z.succ j) with (j + 1) by lia.
      rewrite !smul_succ, H, add_assoc. reflexivity.
    + replace (j + k) with ((Z.succ j + k) - 1) by lia.
      replace j with (Z.succ j - 1) at 2 by lia.
      rewrite !smul_pred, H, !add_assoc. f_equal. apply add_comm.
Qed.

Lemma smul_neg k P : smul (- k) P = pt_neg (smul k P).
Proof.
  apply neg_unique. rewrite <- smul_add. replace (k + - k) with 0 by lia. reflexivity.
Qed.

Lemma smul_O k : smul k pt_O = pt_O.
Proof.
  revert k. apply Z.bi_induction; [intros x y ->; reflexivity | reflexivity |].
  intro k. split; intro H.
  - replace (Z.succ k) with (k + 1) by lia. rewrite smul_succ, H. apply add_O_l.
  - replace k with (Z.succ k - 1) by lia. rewrite smul_pred, H. apply add_neg_r.
Qed.

Lemma smul_mul j k P : smul (j * k) P = smul j (smul k P).
Proof.
  revert j. apply Z.bi_induction; [intros x y ->; reflexivity | reflexivity |].
  intro j. split; intro H.
  - replace (Z.succ j * k) with (k + j * k) by lia.
    replace (Z.succ j) with (j + 1) by lia.
    rewrite smul_add, smul_succ, H. reflexivity.
  - replace (j * k) with (Z.succ j * k + - k) by lia.
    replace j with (Z.succ j - 1) at 2 by lia.
    rewrite smul_add, smul_pred, smul_neg, H. reflexivity.
Qed.

Lemma smul_add_r k P Q : smul k (pt_add P Q) = pt_add (smul k P) (smul k Q).
Proof.
  revert k. apply Z.bi_induction; [intros x y ->; reflexivity | symmetry; apply add_O_l |].
  assert (Sw : forall A B C D, pt_add (pt_add A B) (pt_add C D) = pt_add (pt_add A C) (pt_add B D)).
  { intros. rewrite !add_assoc. f_equal. rewrite <- !add_assoc. f_equal. apply add_comm. }
  intro k. split; intro H.
  - replace (Z.succ k) with (k + 1) by lia. rewrite !smul_succ, H. apply Sw.
  - replace k with (Z.succ k - 1) by lia. rewrite !smul_pred, H, neg_add. apply Sw.
Qed.

Lemma smul_ord P : smul (Zpos ord) P = pt_O.
Proof.
  destruct (G_gen P) as [k ->].
  rewrite <- smul_mul, Z.mul_comm, smul_mul, G_ord. apply smul_O.
Qed.

Lemma smul_mod k P : smul (k mod Zpos ord) P = smul k P.
Proof.
  rewrite (Z.div_mod k (Zpos ord)) at 2 by lia.
  rewrite smul_add, Z.mul_comm, smul_mul, smul_ord, smul_O, add_O_l. reflexivity.
Qed.

(** Scalars acting on the group. *)
Lemma pmul_of_Z k P : pmul (of_Z ord k) P = smul k P.
Proof. unfold pmul. rewrite fz_of_Z. apply smul_mod. Qed.
Lemma pmul_add a b P : pmul (fadd a b) P = pt_add (pmul a P) (pmul b P).
Proof. unfold fadd. rewrite pmul_of_Z, smul_add. reflexivity. Qed.
Lemma pmul_sub a b P : pmul (fsub a b) P = psub (pmul a P) (pmul b P).
Proof.
  unfold fsub, psub. rewrite pmul_of_Z. replace (fz a - fz b) with (fz a + - fz b) by lia.
  rewrite smul_add, smul_neg. reflexivity.
Qed.
Lemma pmul_mul a b P : pmul (fmul a b) P = pmul a (pmul b P).
Proof. unfold fmul. rewrite pmul_of_Z, smul_mul. reflexivity. Qed.
Lemma pmul_neg a P : pmul (fneg a) P = pt_neg (pmul a P).
Proof. unfold fneg. rewrite pmul_of_Z, smul_neg. reflexivity. Qed.
Lemma pmul_0 P : pmul fzero P = pt_O.
Proof. unfold fzero. rewrite pmul_of_Z. reflexivity. Qed.
Lemma pmul_1 P : pmul fone P = P.
Proof. unfold fone. rewrite pmul_of_Z. reflexivity. Qed.
Lemma pmul_O a : pmul a pt_O = pt_O.
Proof. apply smul_O. Qed.
Lemma pmul_add_r a P Q : pmul a (pt_add P Q) = pt_add (pmul a P) (pmul a Q).
Proof. apply smul_add_r. Qed.
Lemma pmul_neg_r a P : pmul a (pt_neg P) = pt_neg (pmul a P).
Proof.
  apply neg_unique. rewrite <- pmul_add_r, add_neg_r. apply pmul_O.
Qed.

Lemma gmul_add a b : gmul (fadd a b) = pt_add (gmul a) (gmul b).
Proof. apply pmul_add. Qed.
Lemma gmul_sub a b : gmul (fsub a b) = psub (gmul a) (gmul b).
Proof. apply pmul_sub. Qed.
Lemma gmul_neg a : gmul (fneg a) = pt_neg (gmul a).
Proof. apply pmul_neg. Qed.
Lemma gmul_mul a b : gmul (fmul a b) = pmul a (gmul b).
Proof. apply pmul_mul. Qed.
Lemma gmul_0 : gmul fzero = pt_O.
Proof. apply pmul_0. Qed.
Lemma gmul_1 : gmul fone = pt_G.
Proof. apply pmul_1. Qed.

(** Every point has a discrete logarithm. *)
Lemma dlog P : exists a : mscalar Pr, P = gmul a.
Proof.
  destruct (G_gen P) as [k ->]. exists (of_Z ord k). unfold gmul. rewrite pmul_of_Z. reflexivity.
Qed.

Lemma G_nz : pt_G <> pt_O.
Proof. apply pt_eqb_neq. apply G_fin. Qed.

(** In a group of prime order multiplication has no zero divisors. *)
Lemma gmul_eq_O a : gmul a = pt_O <-> a = fzero.
Proof.
  split; intro H; [|rewrite H; apply gmul_0].
  destruct (fe_eq_dec a fzero) as [|Ha]; [assumption|].
  exfalso. destruct (finv_exists ord_prime a Ha) as [b Hb].
  apply G_nz. rewrite <- gmul_1, <- Hb.
  rewrite (Rmul_comm fe_ring_theory).
  rewrite gmul_mul, H, pmul_O. reflexivity.
Qed.

Lemma gmul_inj a b : gmul a = gmul b -> a = b.
Proof.
  intro H.
  assert (E : gmul (fsub a b) = pt_O) by (rewrite gmul_sub, H; apply add_neg_r).
  apply gmul_eq_O in E.
  rewrite <- (Radd_0_l fe_ring_theory b), <- E.
  apply (fadd_cancel_l (fneg b)).
  rewrite (Rsub_def fe_ring_theory).
  rewrite <- (Radd_assoc fe_ring_theory a), (Radd_comm fe_ring_theory (fneg b) b).
  rewrite (Ropp_def fe_ring_theory).
  rewrite (Radd_comm fe_ring_theory a fzero), (Radd_0_l fe_ring_theory).
  reflexivity.
Qed.

Lemma pmul_eq_O a P : pmul a P = pt_O <-> a = fzero \/ P = pt_O.
Proof.
  split; [|intros [-> | ->]; [apply pmul_0 | apply pmul_O]].
  destruct (dlog P) as [k ->]. rewrite <- gmul_mul. intro H.
  apply gmul_eq_O in H. apply fmul_integral in H; [|apply ord_prime].
  destruct H as [H|H]; [left; assumption | right; rewrite H; apply gmul_0].
Qed.

Lemma psum_acc l A : fold_left pt_add l A = pt_add A (psum l).
Proof.
  revert A; induction l as [|x l IH]; intro A; unfold psum; simpl; [symmetry; apply add_O_r|].
  rewrite IH, (IH (pt_add pt_O x)), add_O_l, add_assoc. reflexivity.
Qed.
Lemma psum_nil : psum [] = pt_O.
Proof. reflexivity. Qed.
Lemma psum_cons P l : psum (P :: l) = pt_add P (psum l).
Proof. unfold psum at 1; cbn [fold_left]. rewrite psum_acc, add_O_l. reflexivity. Qed.
Lemma psum_app l m : psum (l ++ m) = pt_add (psum l) (psum m).
Proof.
  induction l as [|a l IH]; simpl; [symmetry; apply add_O_l|].
  rewrite !psum_cons, IH, add_assoc. reflexivity.
Qed.
Lemma psum_perm l m : Permutation l m -> psum l = psum m.
Proof.
  induction 1; rewrite ?psum_cons; try congruence; try reflexivity.
  rewrite <- !add_assoc, (add_comm y x). reflexivity.
Qed.
Lemma psum_map_gmul {A} (f : A -> mscalar Pr) l :
  psum (map (fun a => gmul (f a)) l) = gmul (fsum (map f l)).
Proof.
  induction l as [|a l IH]; cbn [map]; [rewrite fsum_nil, gmul_0; reflexivity|].
  rewrite psum_cons, fsum_cons, IH, gmul_add. reflexivity.
Qed.

(** Parity and x coordinate. *)
Lemma neg_ne P : P <> pt_O -> pt_neg P <> P.
Proof.
  intros HP H. pose proof (odd_neg P HP) as Hodd. rewrite H in Hodd.
  destruct (pt_odd P); discriminate.
Qed.

Lemma pneg_if_O c : pneg_if c pt_O = pt_O.
Proof. destruct c; simpl; auto using neg_O. Qed.
Lemma pneg_if_eq_O c P : pneg_if c P = pt_O <-> P = pt_O.
Proof. destruct c; simpl; [apply neg_eq_O | reflexivity]. Qed.
Lemma pneg_if_add c P Q : pneg_if c (pt_add P Q) = pt_add (pneg_if c P) (pneg_if c Q).
Proof. destruct c; simpl; [apply neg_add | reflexivity]. Qed.
Lemma pneg_if_pmul c a P : pneg_if c (pmul a P) = pmul a (pneg_if c P).
Proof. destruct c; simpl; [symmetry; apply pmul_neg_r | reflexivity]. Qed.
Lemma pneg_if_gmul c a : pneg_if c (gmul a) = gmul (fneg_if c a).
Proof. destruct c; simpl; [symmetry; apply gmul_neg | reflexivity]. Qed.
Lemma pneg_if_pmul_l c a P : pneg_if c (pmul a P) = pmul (fneg_if c a) P.
Proof. destruct c; simpl; [symmetry; apply pmul_neg | reflexivity]. Qed.
Lemma pneg_if_invol c P : pneg_if c (pneg_if c P) = P.
Proof. destruct c; simpl; [apply neg_neg | reflexivity]. Qed.
Lemma pneg_if_xorb c d P : pneg_if (xorb c d) P = pneg_if c (pneg_if d P).
Proof. destruct c, d; simpl; auto. symmetry; apply neg_neg. Qed.

Lemma x_pneg_if c P : pt_x (pneg_if c P) = pt_x P.
Proof. destruct c; simpl; [apply x_neg | reflexivity]. Qed.
Lemma odd_pneg_if c P : P <> pt_O -> pt_odd (pneg_if c P) = xorb c (pt_odd P).
Proof. intro H. destruct c; simpl; [rewrite odd_neg by assumption|]; destruct (pt_odd P); reflexivity. Qed.

Lemma to_even_y_odd P : P <> pt_O -> pt_odd (to_even_y P) = false.
Proof. intro H. unfold to_even_y. rewrite odd_pneg_if by assumption. destruct (pt_odd P); reflexivity. Qed.
Lemma to_even_y_x P : pt_x (to_even_y P) = pt_x P.
Proof. apply x_pneg_if. Qed.
Lemma to_even_y_neg P : P <> pt_O -> to_even_y (pt_neg P) = to_even_y P.
Proof.
  intro H. unfold to_even_y. rewrite odd_neg by assumption.
  destruct (pt_odd P); simpl; auto using neg_neg.
Qed.
Lemma to_even_y_even P : pt_odd P = false -> to_even_y P = P.
Proof. intro H. unfold to_even_y. rewrite H. reflexivity. Qed.
Lemma to_even_y_eq_O P : to_even_y P = pt_O <-> P = pt_O.
Proof. apply pneg_if_eq_O. Qed.
Lemma even_x_eq P Q :
  P <> pt_O -> Q <> pt_O -> pt_odd P = false -> pt_odd Q = false -> pt_x P = pt_x Q -> P = Q.
Proof.
  intros HP HQ EP EQ E. destruct (x_inj P Q HP HQ E) as [|H]; [assumption|].
  rewrite H, odd_neg, EQ in EP by assumption. discriminate.
Qed.

(** Scalars and points as subsets. *)
Lemma scalar_ext (a b : scalar Pr) : sval a = sval b -> a = b.
Proof.
  destruct a as [a Ha], b as [b Hb]; simpl; intros ->.
  f_equal. apply UIP_dec. decide equality.
Qed.
Lemma point_ext (a b : point Pr) : pval a = pval b -> a = b.
Proof.
  destruct a as [a Ha], b as [b Hb]; simpl; intros ->.
  f_equal. apply UIP_dec. decide equality.
Qed.
Lemma scalar_nz (a : scalar Pr) : sval a <> fzero.
Proof. apply feqb_neq. apply s_nz. Qed.
Lemma point_fin (a : point Pr) : pval a <> pt_O.
Proof. apply pt_eqb_neq. apply p_fin. Qed.

Lemma not_zero_Some a s : not_zero a = Some s <-> a = sval s.
Proof.
  unfold not_zero. split.
  - generalize (eq_refl (feqb a fzero)).
    pattern (feqb a fzero) at 2 3. destruct (feqb a fzero); intros E H; [discriminate|].
    injection H as <-. reflexivity.
  - intros ->. pose proof (s_nz s) as Hs.
    generalize (eq_refl (feqb s fzero)).
    pattern (feqb s fzero) at 2 3. rewrite Hs. intro E. f_equal. apply scalar_ext. reflexivity.
Qed.
Lemma not_zero_None a : not_zero a = None <-> a = fzero.
Proof.
  destruct (not_zero a) as [s|] eqn:E.
  - apply not_zero_Some in E. split; [discriminate|]. intros ->.
    exfalso. apply (scalar_nz s). auto.
  - split; [intros _|reflexivity].
    destruct (fe_eq_dec a fzero) as [|H]; [assumption|].
    exfalso. apply feqb_neq in H.
    assert (X : not_zero a = Some (Scalar_ a H)) by (apply not_zero_Some; reflexivity).
    congruence.
Qed.
Lemma not_inf_Some P Q : not_inf P = Some Q <-> P = pval Q.
Proof.
  unfold not_inf. split.
  - generalize (eq_refl (pt_eqb P pt_O)).
    pattern (pt_eqb P pt_O) at 2 3. destruct (pt_eqb P pt_O); intros E H; [discriminate|].
    injection H as <-. reflexivity.
  - intros ->. pose proof (p_fin Q) as Hs.
    generalize (eq_refl (pt_eqb Q pt_O)).
    pattern (pt_eqb Q pt_O) at 2 3. rewrite Hs. intro E. f_equal. apply point_ext. reflexivity.
Qed.
Lemma not_inf_None P : not_inf P = None <-> P = pt_O.
Proof.
  destruct (not_inf P) as [s|] eqn:E.
  - apply not_inf_Some in E. split; [discriminate|]. intros ->.
    exfalso. apply (point_fin s). auto.
  - split; [intros _|reflexivity].
    destruct (pt_eq_dec P pt_O) as [|H]; [assumption|].
    exfalso. apply pt_eqb_neq in H.
    assert (X : not_inf P = Some (Point_ P H)) by (apply not_inf_Some; reflexivity).
    congruence.
Qed.
Lemma not_inf_fin P : P <> pt_O -> exists Q, not_inf P = Some Q /\ pval Q = P.
Proof.
  intro H. destruct (not_inf P) as [Q|] eqn:E.
  - exists Q. split; [reflexivity|]. apply not_inf_Some in E. auto.
  - apply not_inf_None in E. contradiction.
Qed.
Lemma not_inf_point (P : point Pr) : not_inf P = Some P.
Proof. apply not_inf_Some. reflexivity. Qed.
Lemma not_zero_scalar (a : scalar Pr) : not_zero a = Some a.
Proof. apply not_zero_Some. reflexivity. Qed.

(** The default of [to_point] is not used on finite arguments. *)
Lemma to_point_val P : P <> pt_O -> pval (to_point P) = P.
Proof.
  intro H. unfold to_point. destruct (not_inf_fin P H) as (Q & -> & E). exact E.
Qed.
Lemma gmul_scalar_fin (k : scalar Pr) : gmul k <> pt_O.
Proof. intro H. apply gmul_eq_O in H. apply (scalar_nz k H). Qed.
Lemma base_mul_val (k : scalar Pr) : pval (base_mul k) = gmul k.
Proof. apply to_point_val, gmul_scalar_fin. Qed.
Lemma neg_point_val (P : point Pr) : pval (neg_point P) = pt_neg P.
Proof. apply to_point_val. rewrite neg_eq_O. apply point_fin. Qed.
Lemma even_point_val (P : point Pr) : pval (even_point P) = to_even_y P.
Proof. apply to_point_val. rewrite to_even_y_eq_O. apply point_fin. Qed.
Lemma dlog_scalar (P : point Pr) : exists k : scalar Pr, P = base_mul k.
Proof.
  destruct (dlog P) as [a Ha].
  assert (Hz : a <> fzero).
  { intro Z. apply (point_fin P). rewrite Ha, Z. apply gmul_0. }
  apply feqb_neq in Hz. exists (Scalar_ a Hz). apply point_ext. rewrite base_mul_val. exact Ha.
Qed.
Lemma base_mul_inj (a b : scalar Pr) : base_mul a = base_mul b -> a = b.
Proof.
  intro H. apply scalar_ext, gmul_inj. rewrite <- !base_mul_val, H. reflexivity.
Qed.

Lemma ord_ge_3 : 3 <= Zpos ord.
Proof.
  assert (2 <= Zpos ord) by (unfold ord; lia).
  destruct (Z.eq_dec (Zpos ord) 2) as [E|]; [exfalso|lia].
  apply (neg_ne pt_G G_nz).
  symmetry. apply neg_unique.
  pose proof G_ord as H2. rewrite E in H2. exact H2.
Qed.

Lemma rng_scalar_nz seed i : rng_scalar seed i <> fzero.
Proof.
  pose proof ord_ge_3.
  intro E. apply (f_equal fz) in E. unfold rng_scalar, fzero in E. rewrite !fz_of_Z, Zmod_0_l in E.
  pose proof (Z.mod_pos_bound (Zpos (rng seed i)) (Zpos (@ord Pr) - 1) ltac:(lia)).
  rewrite Z.mod_small in E; lia.
Qed.

End Group.
