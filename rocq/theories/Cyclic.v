(** Integer multiples in an abelian group, and a counting argument: a group of
    fewer than 3n elements, without elements of order two, in which [g] has prime
    order n, is generated by [g]. *)
From Coq Require Import ZArith Znumtheory List Lia.
From Verif Require Import Primality.
Import ListNotations.
Open Scope Z_scope.

(** Distinct integers of [0, m) are at most m. *)
Lemma pigeon m (l : list Z) : NoDup l -> (forall x, In x l -> 0 <= x < m) -> Z.of_nat (length l) <= Z.max 0 m.
Proof.
  intros Hn Hb. pose (s := map Z.of_nat (seq 0 (Z.to_nat m))).
  assert (Hi : incl l s).
  { intros x Hx. apply Hb in Hx. apply in_map_iff. exists (Z.to_nat x). split; [lia|]. apply in_seq. lia. }
  pose proof (NoDup_incl_length Hn Hi) as H. unfold s in H. rewrite map_length, seq_length in H. lia.
Qed.

Lemma NoDup_app_intro {B} (l k : list B) : NoDup l -> NoDup k -> (forall x, In x l -> ~ In x k) -> NoDup (l ++ k).
Proof.
  induction l as [|x l IH]; intros Hl Hk H; [exact Hk|]. inversion Hl as [|? ? Hx Hl']; subst. cbn [app]. constructor.
  - intro HI. apply in_app_or in HI as [HI|HI]; [contradiction|]. apply (H x); [now left | exact HI].
  - apply IH; [exact Hl'|exact Hk|]. intros y Hy. apply H. now right.
Qed.

Section Multiples.
Context {A : Type} (e : A) (op : A -> A -> A) (inv : A -> A).
Hypothesis op_assoc : forall a b c, op (op a b) c = op a (op b c).
Hypothesis op_comm : forall a b, op a b = op b a.
Hypothesis op_e : forall a, op e a = a.
Hypothesis op_inv : forall a, op a (inv a) = e.

(** The same definition as [smul] of Prims.v. *)
Definition zmul (k : Z) (a : A) : A :=
  match k with
  | Z0 => e
  | Zpos p => Pos.iter_op op p a
  | Zneg p => inv (Pos.iter_op op p a)
  end.

Lemma op_e_r a : op a e = a.
Proof. rewrite op_comm. apply op_e. Qed.
Lemma op_inv_l a : op (inv a) a = e.
Proof. rewrite op_comm. apply op_inv. Qed.
Lemma op_cancel a b c : op a b = op a c -> b = c.
Proof. intro H. rewrite <- (op_e b), <- (op_e c), <- (op_inv_l a), !op_assoc, H. reflexivity. Qed.
Lemma inv_unique a b : op a b = e -> b = inv a.
Proof. intro H. apply (op_cancel a). now rewrite H, op_inv. Qed.
Lemma inv_op a b : inv (op a b) = op (inv a) (inv b).
Proof.
  symmetry. apply inv_unique.
  now rewrite (op_comm a b), op_assoc, <- (op_assoc a), op_inv, op_e, op_inv.
Qed.
Lemma op_swap a b c d : op (op a b) (op c d) = op (op a c) (op b d).
Proof. rewrite !op_assoc. f_equal. rewrite <- !op_assoc. f_equal. apply op_comm. Qed.

Lemma iter_succ p a : Pos.iter_op op (Pos.succ p) a = op a (Pos.iter_op op p a).
Proof. apply Pos.iter_op_succ. intros; symmetry; apply op_assoc. Qed.
Lemma zmul_succ k a : zmul (k + 1) a = op a (zmul k a).
Proof.
  destruct k as [|p|p].
  - cbn [zmul Z.add]. symmetry. apply op_e_r.
  - cbn [zmul Z.add]. now rewrite <- iter_succ, Pos.add_1_r.
  - destruct (Pos.eq_dec p 1) as [->|Hp].
    + cbn [zmul Z.add]. change (Z.pos_sub 1 1) with 0. cbn [zmul Pos.iter_op]. symmetry. apply op_inv.
    + rewrite <- (Pos.succ_pred p) by assumption.
      replace (Zneg (Pos.succ (Pos.pred p)) + 1) with (Zneg (Pos.pred p)) by lia.
      cbn [zmul]. now rewrite iter_succ, inv_op, <- op_assoc, op_inv, op_e.
Qed.
Lemma zmul_pred k a : zmul (k - 1) a = op (zmul k a) (inv a).
Proof.
  replace k with ((k - 1) + 1) at 2 by lia. now rewrite zmul_succ, op_comm, <- op_assoc, op_inv_l, op_e.
Qed.
Lemma zmul_add j k a : zmul (j + k) a = op (zmul j a) (zmul k a).
Proof.
  revert j. apply (Z.bi_induction (fun j => zmul (j + k) a = op (zmul j a) (zmul k a))).
  - intros x y ->. reflexivity.
  - cbn [Z.add]. symmetry. apply op_e.
  - intro j. split; intro H.
    + replace (Z.succ j + k) with ((j + k) + 1) by lia. replace (Z.succ j) with (j + 1) by lia.
      now rewrite !zmul_succ, H, op_assoc.
    + replace (j + k) with ((Z.succ j + k) - 1) by lia. replace j with (Z.succ j - 1) at 2 by lia.
      rewrite !zmul_pred, H, !op_assoc. f_equal. apply op_comm.
Qed.
Lemma zmul_neg k a : zmul (- k) a = inv (zmul k a).
Proof. apply inv_unique. rewrite <- zmul_add. now replace (k + - k) with 0 by lia. Qed.
Lemma zmul_e k : zmul k e = e.
Proof.
  revert k. apply Z.bi_induction; [intros x y ->; reflexivity | reflexivity |].
  intro k. split; intro H.
  - replace (Z.succ k) with (k + 1) by lia. rewrite zmul_succ, H. apply op_e.
  - replace k with (Z.succ k - 1) by lia. rewrite zmul_pred, H. apply op_inv.
Qed.
Lemma zmul_mul j k a : zmul (j * k) a = zmul j (zmul k a).
Proof.
  revert j. apply Z.bi_induction; [intros x y ->; reflexivity | reflexivity |].
  intro j. split; intro H.
  - replace (Z.succ j * k) with (k + j * k) by lia. replace (Z.succ j) with (j + 1) by lia.
    now rewrite zmul_add, zmul_succ, H.
  - replace (j * k) with (Z.succ j * k + - k) by lia. replace j with (Z.succ j - 1) at 2 by lia.
    now rewrite zmul_add, zmul_pred, zmul_neg, H.
Qed.
Lemma zmul_op k a b : zmul k (op a b) = op (zmul k a) (zmul k b).
Proof.
  revert k. apply Z.bi_induction; [intros x y ->; reflexivity | symmetry; apply op_e |].
  intro k. split; intro H.
  - replace (Z.succ k) with (k + 1) by lia. rewrite !zmul_succ, H. apply op_swap.
  - replace k with (Z.succ k - 1) by lia. rewrite !zmul_pred, H, inv_op. apply op_swap.
Qed.

Variables (g : A) (n : Z).
Hypothesis n_prime : prime n.
Hypothesis g_ord : zmul n g = e.
Hypothesis g_e : g <> e.

Lemma zmul_g_e k : zmul k g = e -> (n | k).
Proof.
  intro H. destruct (Zdivide_dec n k) as [D|D]; [exact D|exfalso]. apply g_e.
  apply prime_rel_prime in D; [|exact n_prime]. apply rel_prime_bezout in D. destruct D as [u v E].
  change g with (zmul 1 g). now rewrite <- E, zmul_add, !zmul_mul, g_ord, H, !zmul_e, op_e.
Qed.
Lemma zmul_g_inj i j : 0 <= i < n -> 0 <= j < n -> zmul i g = zmul j g -> i = j.
Proof.
  intros Hi Hj H. assert (D : (n | i - j)).
  { apply zmul_g_e. replace (i - j) with (i + - j) by lia. now rewrite zmul_add, zmul_neg, H, op_inv. }
  destruct D as [q Hq]. assert (q < 1) by nia. assert (-1 < q) by nia. assert (q = 0) by lia. subst q. lia.
Qed.

Variables (code : A -> Z) (m : Z).
Hypothesis code_inj : forall a b, code a = code b -> a = b.
Hypothesis code_range : forall a, 0 <= code a < m.
Hypothesis m_small : m < 3 * n.
Hypothesis no_order_2 : forall a, op a a = e -> a = e.
Hypothesis n_odd : Z.odd n = true.

(** Membership in the subgroup generated by [g]. *)
Definition in_gen (a : A) : Prop := exists k, a = zmul k g.
Lemma in_gen_op a b : in_gen a -> in_gen b -> in_gen (op a b).
Proof. intros [j ->] [k ->]. exists (j + k). symmetry. apply zmul_add. Qed.
Lemma in_gen_inv a : in_gen a -> in_gen (inv a).
Proof. intros [j ->]. exists (- j). symmetry. apply zmul_neg. Qed.
Lemma in_gen_zmul k : in_gen (zmul k g). Proof. now exists k. Qed.

(** Multiples of g, shifted by [a]. *)
Definition coset (a : A) : list A := map (fun i => op a (zmul (Z.of_nat i) g)) (seq 0 (Z.to_nat n)).
Lemma coset_length a : length (coset a) = Z.to_nat n.
Proof. unfold coset. now rewrite map_length, seq_length. Qed.
Lemma coset_NoDup a : NoDup (coset a).
Proof.
  apply NoDup_map_inj; [|apply seq_NoDup]. intros i j Hi Hj H.
  apply in_seq in Hi, Hj. apply op_cancel, zmul_g_inj in H; lia.
Qed.
Lemma coset_disjoint a b : (forall c, b = op a c -> ~ in_gen c) -> forall x, In x (coset a) -> ~ In x (coset b).
Proof.
  intros H x Ha Hb. apply in_map_iff in Ha as (i & Ei & _). apply in_map_iff in Hb as (j & Ej & _).
  set (gi := zmul (Z.of_nat i) g) in *. set (gj := zmul (Z.of_nat j) g) in *.
  apply (H (op gi (inv gj))).
  - rewrite <- op_assoc, Ei, <- Ej, op_assoc, op_inv, op_e_r. reflexivity.
  - apply in_gen_op; [|apply in_gen_inv]; apply in_gen_zmul.
Qed.

Theorem generated a : in_gen a.
Proof.
  pose proof (prime_ge_2 _ n_prime) as Hn2.
  assert (HD : in_gen a \/ ~ in_gen a).
  { destruct (in_dec Z.eq_dec (code a) (map code (coset e))) as [H|H].
    - left. apply in_map_iff in H as (x & Ex & Hx). apply code_inj in Ex. subst x.
      apply in_map_iff in Hx as (i & Ei & _). exists (Z.of_nat i). now rewrite <- Ei, op_e.
    - right. intros [k Hk]. apply H. apply in_map_iff. exists a. split; [reflexivity|].
      apply in_map_iff. exists (Z.to_nat (k mod n)). pose proof (Z.mod_pos_bound k n ltac:(lia)). split.
      + rewrite op_e, Z2Nat.id by lia. rewrite Hk. rewrite (Z.div_mod k n) at 2 by lia.
        now rewrite zmul_add, (Z.mul_comm n), zmul_mul, g_ord, zmul_e, op_e.
      + apply in_seq. lia. }
  destruct HD as [HD|HD]; [exact HD|]. exfalso.
  assert (HD2 : ~ in_gen (op a a)).
  { (* otherwise a minus half of 2a has order two *)
    intros [k Hk]. pose (h := (n + 1) / 2). assert (Hh : 2 * h = n + 1).
    { unfold h. apply Z.odd_spec in n_odd as [q ->]. replace (2 * q + 1 + 1) with ((q + 1) * 2) by lia. rewrite Z.div_mul by lia. lia. }
    pose (c := op a (inv (zmul (h * k) g))).
    assert (Hc : c = e).
    { apply no_order_2. unfold c. rewrite op_swap, Hk, <- zmul_neg, <- !zmul_add.
      replace (k + (- (h * k) + - (h * k))) with (- k * n) by (replace (- (h * k) + - (h * k)) with (- (k * (2 * h))) by lia; rewrite Hh; lia).
      now rewrite zmul_mul, g_ord, zmul_e. }
    apply HD. exists (h * k). unfold c in Hc. rewrite <- (op_e_r a), <- (op_inv_l (zmul (h * k) g)), <- op_assoc, Hc, op_e. reflexivity. }
  assert (D1 : forall x, In x (coset e) -> ~ In x (coset a)).
  { apply coset_disjoint. intros c Hc Hg. rewrite op_e in Hc. now subst c. }
  assert (D2 : forall x, In x (coset e) -> ~ In x (coset (op a a))).
  { apply coset_disjoint. intros c Hc Hg. rewrite op_e in Hc. now subst c. }
  assert (D3 : forall x, In x (coset a) -> ~ In x (coset (op a a))).
  { apply coset_disjoint. intros c Hc Hg. apply op_cancel in Hc. now subst c. }
  assert (ND : NoDup (coset e ++ coset a ++ coset (op a a))).
  { apply NoDup_app_intro; [apply coset_NoDup | apply NoDup_app_intro; [apply coset_NoDup | apply coset_NoDup | exact D3] |].
    intros x Hx Hy. apply in_app_or in Hy as [Hy|Hy]; [now apply (D1 x) | now apply (D2 x)]. }
  pose proof (pigeon m (map code (coset e ++ coset a ++ coset (op a a)))) as HP.
  rewrite map_length, !app_length, !coset_length in HP.
  assert (HL : Z.of_nat (Z.to_nat n + (Z.to_nat n + Z.to_nat n)) <= Z.max 0 m).
  { apply HP.
    - apply NoDup_map_inj; [intros x y _ _; apply code_inj | exact ND].
    - intros x Hx. apply in_map_iff in Hx as (y & <- & _). apply code_range. }
  lia.
Qed.
End Multiples.
