(** Primality of large numbers by Pocklington's criterion, with Fermat's little theorem. *)
From Coq Require Import ZArith Znumtheory Zpow_facts List Permutation Lia Bool.
Import ListNotations.
Open Scope Z_scope.

(** Product of a list. *)
Definition zprod (l : list Z) : Z := fold_right Z.mul 1 l.
(** The numbers 1, ..., p - 1. *)
Definition residues (p : Z) : list Z := map Z.of_nat (seq 1 (Z.to_nat (p - 1))).

Lemma in_residues p x : In x (residues p) <-> 1 <= x < p.
Proof.
  unfold residues. rewrite in_map_iff. split.
  - intros (k & <- & Hk). apply in_seq in Hk. lia.
  - intro H. exists (Z.to_nat x). split; [lia|]. apply in_seq. lia.
Qed.
Lemma NoDup_map_inj {A B} (f : A -> B) l :
  (forall x y, In x l -> In y l -> f x = f y -> x = y) -> NoDup l -> NoDup (map f l).
Proof.
  induction l as [|x l IH]; intros Hf Hl; [constructor|]. inversion Hl as [|? ? Hx Hl']; subst. cbn [map]. constructor.
  - intro H. apply in_map_iff in H as (y & E & Hy). apply Hx. rewrite (Hf x y); auto; [now left|now right].
  - apply IH; [|exact Hl']. intros a b Ha Hb. apply Hf; now right.
Qed.
Lemma NoDup_residues p : NoDup (residues p).
Proof. apply NoDup_map_inj; [intros; lia | apply seq_NoDup]. Qed.

Lemma zprod_perm l l' : Permutation l l' -> zprod l = zprod l'.
Proof. induction 1; cbn [zprod fold_right] in *; unfold zprod in *; cbn [fold_right]; lia. Qed.
Lemma zprod_mul p a l : 0 < p ->
  zprod (map (fun i => (a * i) mod p) l) mod p = (a ^ Z.of_nat (length l) * zprod l) mod p.
Proof.
  intro Hp. induction l as [|x l IH]; [reflexivity|]. cbn [map length]. unfold zprod in *. cbn [fold_right].
  rewrite Z.mul_mod_idemp_l, <- Z.mul_mod_idemp_r, IH, Z.mul_mod_idemp_r by lia.
  rewrite Nat2Z.inj_succ, Z.pow_succ_r by lia. f_equal. lia.
Qed.
Lemma zprod_rel_prime p l : prime p -> (forall x, In x l -> ~ (p | x)) -> rel_prime (zprod l) p.
Proof.
  intros Hp H. induction l as [|x l IH].
  - apply rel_prime_1.
  - unfold zprod. cbn [fold_right]. apply rel_prime_sym, rel_prime_mult; apply rel_prime_sym.
    + apply rel_prime_sym, prime_rel_prime; [exact Hp|]. apply H. now left.
    + apply IH. intros y Hy. apply H. now right.
Qed.
Lemma mul_cancel p a x y : rel_prime a p -> (a * x) mod p = (a * y) mod p -> 0 < p -> x mod p = y mod p.
Proof.
  intros Ha H Hp. assert (HD : (p | a * (x - y))).
  { apply Z.mod_divide; [lia|]. rewrite Z.mul_sub_distr_l, Zminus_mod, H, Z.sub_diag. reflexivity. }
  apply Gauss in HD; [|apply rel_prime_sym, Ha]. destruct HD as [k Hk].
  replace x with (y + k * p) by lia. apply Z.mod_add. lia.
Qed.

Theorem fermat p a : prime p -> ~ (p | a) -> a ^ (p - 1) mod p = 1.
Proof.
  intros Hp Ha. pose proof (prime_ge_2 _ Hp) as H2.
  assert (HR : forall x, 1 <= x < p -> ~ (p | x)) by (intros x Hx HD; apply Z.divide_pos_le in HD; lia).
  assert (HP : Permutation (map (fun i => (a * i) mod p) (residues p)) (residues p)).
  { apply NoDup_Permutation_bis.
    - apply NoDup_map_inj; [|apply NoDup_residues]. intros x y Hx Hy E. apply in_residues in Hx, Hy.
      apply mul_cancel in E; [|apply rel_prime_sym, prime_rel_prime; assumption|lia].
      rewrite !Z.mod_small in E by lia. exact E.
    - rewrite map_length. lia.
    - intros z Hz. apply in_map_iff in Hz as (x & <- & Hx). apply in_residues in Hx. apply in_residues.
      pose proof (Z.mod_pos_bound (a * x) p ltac:(lia)) as Hb.
      assert ((a * x) mod p <> 0); [|lia]. intro E. apply Z.mod_divide in E; [|lia].
      apply prime_mult in E; [|exact Hp]. destruct E as [E|E]; [contradiction|]. destruct (HR x Hx E). }
  pose proof (zprod_mul p a (residues p) ltac:(lia)) as E. rewrite (zprod_perm _ _ HP) in E.
  assert (HL : Z.of_nat (length (residues p)) = p - 1) by (unfold residues; rewrite map_length, seq_length; lia).
  rewrite HL in E. rewrite <- (Z.mul_1_r (zprod _)), (Z.mul_comm (a ^ (p - 1))) in E at 1.
  apply mul_cancel in E; [|apply zprod_rel_prime; [exact Hp|intros x Hx; apply in_residues in Hx; auto]|lia].
  rewrite <- E. apply Z.mod_small. lia.
Qed.

(** One prime factor q of N - 1 with a witness divides p - 1 for every prime p dividing N. *)
Lemma pocklington_factor N q b p : prime q -> prime p -> (p | N) -> 1 < N ->
  b ^ q mod N = 1 -> Z.gcd (b - 1) N = 1 -> (q | p - 1).
Proof.
  intros Hq Hp HpN HN Hb Hg. pose proof (prime_ge_2 _ Hp) as H2. pose proof (prime_ge_2 _ Hq) as H2q.
  assert (Hbq : b ^ q mod p = 1).
  { destruct HpN as [k ->]. rewrite (Zmod_div_mod p (k * p) (b ^ q)); try lia.
    - rewrite Hb. apply Z.mod_small. lia.
    - exists k. reflexivity. }
  assert (Hb1 : b mod p <> 1).
  { intro E. assert (HD : (p | b - 1)) by (apply Z.mod_divide; [lia|]; rewrite Zminus_mod, E, Z.mod_1_l by lia; reflexivity).
    pose proof (Z.gcd_greatest _ _ _ HD HpN) as H. rewrite Hg in H. apply Z.divide_1_r_nonneg in H; lia. }
  assert (Hpb : ~ (p | b)).
  { intro HD. assert (E : b ^ q mod p = 0).
    { apply Z.mod_divide; [lia|]. replace q with (Z.succ (q - 1)) by lia. rewrite Z.pow_succ_r by lia. apply Z.divide_mul_l, HD. }
    lia. }
  pose proof (fermat p b Hp Hpb) as HF.
  destruct (Zdivide_dec q (p - 1)) as [HD|HD]; [exact HD|exfalso].
  pose proof (prime_rel_prime _ Hq _ HD) as HR.
  (* u q = 1 + v (p - 1) with u, v >= 0 *)
  apply rel_prime_bezout in HR. destruct HR as [u v HR].
  assert (HB : exists u v, 0 <= u /\ 0 <= v /\ u * q = 1 + v * (p - 1)).
  { exists (u + (p - 1) * (Z.abs u + Z.abs v)), (q * (Z.abs u + Z.abs v) - v).
    split; [nia|]. split; [nia|]. nia. }
  clear u v HR. destruct HB as (u & v & Hu & Hv & HB).
  assert (H1 : b ^ (u * q) mod p = 1).
  { rewrite Z.mul_comm, Z.pow_mul_r by lia. rewrite Zpower_mod by lia. rewrite Hbq, Z.pow_1_l by lia. apply Z.mod_small. lia. }
  rewrite HB, Z.pow_add_r, Z.pow_1_r, (Z.mul_comm v), Z.pow_mul_r in H1 by nia.
  rewrite <- Z.mul_mod_idemp_r, Zpower_mod, HF, Z.pow_1_l, Z.mod_1_l, Z.mul_1_r in H1 by lia. contradiction.
Qed.

Lemma prime_divisor n : 1 < n -> exists p, prime p /\ (p | n).
Proof.
  intro Hn. assert (HI : forall k m, (Z.to_nat m < k)%nat -> 1 < m -> exists p, prime p /\ (p | m)).
  { induction k as [|k IH]; [lia|]. intros m Hk Hm. destruct (prime_dec m) as [H|H].
    - exists m. split; [exact H|apply Z.divide_refl].
    - apply not_prime_divide in H as (d & Hd & HD); [|exact Hm].
      destruct (IH d) as (p & Hp & HpD); [lia|lia|]. exists p. split; [exact Hp|]. apply Z.divide_trans with d; assumption. }
  apply (HI (S (Z.to_nat n))); lia.
Qed.
Lemma prime_by_divisors N F : 1 < N -> 0 < F -> N < (F + 1) * (F + 1) ->
  (forall p, prime p -> (p | N) -> (F | p - 1)) -> prime N.
Proof.
  intros HN HF HB H. destruct (prime_dec N) as [Hp|Hp]; [exact Hp|exfalso].
  apply not_prime_divide in Hp as (u & Hu & [v Hv]); [|exact HN].
  assert (HD : exists w, 1 < w /\ w * w <= N /\ (w | N)).
  { destruct (Z_le_gt_dec u v).
    - exists u. split; [lia|]. split; [nia|]. exists v. lia.
    - exists v. split; [nia|]. split; [nia|]. exists u. lia. }
  destruct HD as (w & Hw & Hww & HwD). destruct (prime_divisor w Hw) as (p & Hp & HpD).
  pose proof (prime_ge_2 _ Hp). apply Z.divide_pos_le in HpD as Hle; [|lia].
  specialize (H p Hp (Z.divide_trans _ _ _ HpD HwD)). apply Z.divide_pos_le in H; [|lia]. nia.
Qed.

(** Powers modulo N with a multiplication [m] that is correct modulo N. *)
Section Power.
Variables (N : Z) (red : Z -> Z).
Hypothesis Hred : forall x, red x mod N = x mod N.
(** The power [a]^[e] by squaring, reduced with [red]. *)
Fixpoint ppow (a : Z) (e : positive) : Z :=
  match e with
  | xH => a
  | xO e => let h := ppow a e in red (h * h)
  | xI e => let h := ppow a e in red (a * red (h * h))
  end.
Lemma ppow_mod a e : 0 < N -> ppow a e mod N = a ^ Zpos e mod N.
Proof.
  intro HN. assert (HS : forall h x, h mod N = x mod N -> red (h * h) mod N = (x * x) mod N).
  { intros h x E. rewrite Hred, Z.mul_mod, E, <- Z.mul_mod by lia. reflexivity. }
  induction e as [e IH|e IH|]; cbn [ppow].
  - rewrite Hred, <- Z.mul_mod_idemp_r, (HS _ _ IH), Z.mul_mod_idemp_r by lia.
    rewrite Pos2Z.inj_xI, Z.pow_add_r, Z.pow_1_r, Z.mul_comm, Z.pow_mul_r, Z.pow_2_r, <- Z.pow_mul_l by lia. reflexivity.
  - rewrite (HS _ _ IH).
    rewrite Pos2Z.inj_xO, Z.pow_mul_r, Z.pow_2_r, <- Z.pow_mul_l by lia. reflexivity.
  - rewrite Z.pow_1_r. reflexivity.
Qed.

(** Certificate: pairs of a prime factor q of N - 1 and a base. *)
Definition pock_ok (qa : Z * Z) : bool :=
  let (q, a) := qa in
  match (N - 1) / q, q with
  | Zpos e, Zpos q' =>
      let b := ppow a e in
      (ppow b q' mod N =? 1) && (Z.gcd (b - 1) N =? 1)
  | _, _ => false
  end.
(** The whole certificate: the factored part of N - 1 exceeds the square root of N. *)
Definition pock_check (l : list (Z * Z)) : bool :=
  (1 <? N) && forallb pock_ok l && (N <? (zprod (map fst l) + 1) * (zprod (map fst l) + 1)).

Lemma distinct_primes_divide l m : NoDup l -> (forall q, In q l -> prime q) -> (forall q, In q l -> (q | m)) -> (zprod l | m).
Proof.
  induction l as [|q l IH]; intros Hn Hp Hd; [apply Z.divide_1_l|].
  inversion Hn as [|? ? Hq Hl]; subst. unfold zprod. cbn [fold_right].
  assert (HI : (zprod l | m)) by (apply IH; [exact Hl|intros; apply Hp; now right|intros; apply Hd; now right]).
  destruct (Hd q) as [k Hk]; [now left|]. subst m. rewrite Z.mul_comm in HI.
  apply Gauss in HI; [rewrite (Z.mul_comm k); apply Z.mul_divide_mono_l, HI|].
  apply zprod_rel_prime; [apply Hp; now left|]. intros x Hx HD.
  apply (prime_div_prime q x) in HD; [subst x; contradiction|apply Hp; now left|apply Hp; now right].
Qed.
Theorem pocklington l : pock_check l = true -> NoDup (map fst l) -> (forall q, In q (map fst l) -> prime q) -> prime N.
Proof.
  intros H Hn Hp. unfold pock_check in H. apply andb_true_iff in H as [H HB]. apply andb_true_iff in H as [HN HF].
  apply Z.ltb_lt in HN, HB. rewrite forallb_forall in HF.
  apply (prime_by_divisors N (zprod (map fst l))); [exact HN| |exact HB|].
  - clear - Hp. induction (map fst l) as [|q m IH]; [reflexivity|]. unfold zprod in *. cbn [fold_right].
    pose proof (prime_ge_2 q (Hp q (or_introl eq_refl))).
    assert (0 < fold_right Z.mul 1 m) by (apply IH; intros; apply Hp; now right). lia.
  - intros p Hpp HpN. apply distinct_primes_divide; [exact Hn|exact Hp|]. intros q Hq.
    pose proof (Hp q Hq) as Hqp. apply in_map_iff in Hq as ([q0 a] & E & Hq). cbn [fst] in E. subst q0.
    specialize (HF _ Hq). cbn [pock_ok] in HF.
    destruct ((N - 1) / q) as [|e|e]; try discriminate. destruct q as [|q'|q']; try discriminate.
    apply andb_true_iff in HF as [H1 H2]. apply Z.eqb_eq in H1, H2.
    apply (pocklington_factor N (Zpos q') (ppow a e) p); try assumption.
    rewrite <- ppow_mod by lia. exact H1.
Qed.
End Power.

(** Reduction modulo 2^k - c by folding the high part, twice. *)
Definition fold_red (k c x : Z) : Z :=
  let y := Z.shiftr x k * c + Z.land x (Z.ones k) in
  Z.shiftr y k * c + Z.land y (Z.ones k).
Lemma fold_red_mod k c x : 0 <= k -> fold_red k c x mod (2 ^ k - c) = x mod (2 ^ k - c).
Proof.
  intro Hk. assert (H : forall z, (Z.shiftr z k * c + Z.land z (Z.ones k)) mod (2 ^ k - c) = z mod (2 ^ k - c)).
  { intro z. rewrite Z.shiftr_div_pow2, Z.land_ones by lia.
    destruct (Z.eq_dec (2 ^ k - c) 0) as [E|E].
    - rewrite E, !Zmod_0_r. assert (c = 2 ^ k) by lia. subst c. pose proof (Z.div_mod z (2 ^ k) ltac:(lia)). lia.
    - replace z with (z / 2 ^ k * c + z mod 2 ^ k + z / 2 ^ k * (2 ^ k - c)) at 3.
      + symmetry. apply Z.mod_add, E.
      + pose proof (Z.div_mod z (2 ^ k) ltac:(lia)). lia. }
  unfold fold_red. cbv zeta. rewrite !H. reflexivity.
Qed.

(** Trial division. *)
Definition no_divisor (n : Z) (l : list Z) : bool := forallb (fun d => negb (n mod d =? 0)) l.
Lemma prime_trial n k : 1 < n -> n < (Z.of_nat k + 2) * (Z.of_nat k + 2) ->
  no_divisor n (map (fun i => Z.of_nat i + 2) (seq 0 k)) = true -> prime n.
Proof.
  intros Hn Hk H. destruct (prime_dec n) as [Hp|Hp]; [exact Hp|exfalso].
  apply not_prime_divide in Hp as (u & Hu & [v Hv]); [|exact Hn].
  assert (HD : exists w, 1 < w < Z.of_nat k + 2 /\ (w | n)).
  { destruct (Z_le_gt_dec u v).
    - exists u. split; [nia|]. exists v. lia.
    - exists v. split; [nia|]. exists u. lia. }
  destruct HD as (w & Hw & HD). unfold no_divisor in H. rewrite forallb_forall in H.
  specialize (H w). rewrite in_map_iff in H.
  assert (HH : negb (n mod w =? 0) = true) by (apply H; exists (Z.to_nat (w - 2)); split; [lia|apply in_seq; lia]).
  apply Z.mod_divide in HD; [|lia]. rewrite HD in HH. discriminate.
Qed.
