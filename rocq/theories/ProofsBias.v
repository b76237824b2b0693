(** Proofs of the theorems of PropertiesBias.v. *)
From Coq Require Import String List Lia.
From Verif Require Import Bytes BytesFacts Prims PrimsFacts TaggedHashes Errors SpecTags SpecBIP327
  KeyAgg Nonces Signature Signing SpecSecp Secp256k1 SecpFacts Toy ToyData.
Import ListNotations.
Open Scope list_scope.
Open Scope Z_scope.
From Coq Require Import Lia Permutation.
From Verif Require Import Cyclic Primality SpecFacts SpecSigning ProofsHashing.
Open Scope Z_scope.

(** The numbers v, v + n, v + 2n, ... below 2^256, as 32 bytes each. *)
Definition pre_list (n v : Z) (m : nat) : list bytes :=
  map (fun i => be_enc 32 (v + Z.of_nat i * n)) (seq 0 m).
(** The number of 32-byte strings whose value is [v] modulo [n]. *)
Definition pre_count (n v : Z) : Z := 2 ^ 256 / n + (if v <? 2 ^ 256 mod n then 1 else 0).

Lemma P256 : 256 ^ Z.of_nat 32 = 2 ^ 256. Proof. reflexivity. Qed.
Lemma count_spec n v i : 0 < n -> 0 <= v < n -> 0 <= i -> (i < pre_count n v <-> v + i * n < 2 ^ 256).
Proof.
  intros Hn Hv Hi. unfold pre_count. pose proof (Z.div_mod (2 ^ 256) n ltac:(lia)) as E.
  pose proof (Z.mod_pos_bound (2 ^ 256) n Hn) as B.
  set (q := 2 ^ 256 / n) in *. set (r := 2 ^ 256 mod n) in *. set (X := 2 ^ 256) in *. clearbody q r X.
  destruct (v <? r) eqn:L; [apply Z.ltb_lt in L | apply Z.ltb_ge in L]; split; intro H; nia.
Qed.
Lemma count_pos n v : 0 < n -> 0 <= pre_count n v.
Proof.
  intro H. unfold pre_count. assert (0 <= 2 ^ 256 / n) by (apply Z.div_pos; lia). destruct (v <? _); lia.
Qed.
Lemma pre_list_spec n v : 0 < n -> 0 <= v < n ->
  NoDup (pre_list n v (Z.to_nat (pre_count n v))) /\
  (forall d, In d (pre_list n v (Z.to_nat (pre_count n v))) <-> length d = 32%nat /\ be_dec d mod n = v) /\
  Z.of_nat (length (pre_list n v (Z.to_nat (pre_count n v)))) = pre_count n v.
Proof.
  intros Hn Hv. pose proof (count_pos n v Hn) as HC.
  assert (R : forall i, In i (seq 0 (Z.to_nat (pre_count n v))) -> 0 <= v + Z.of_nat i * n < 256 ^ Z.of_nat 32).
  { intros i Hi. apply in_seq in Hi. rewrite P256. split; [nia|]. apply (count_spec n v (Z.of_nat i)); lia. }
  split; [|split].
  - unfold pre_list. revert R. generalize (seq_NoDup (Z.to_nat (pre_count n v)) 0).
    generalize (seq 0 (Z.to_nat (pre_count n v))) as l. induction l as [|a l IH]; intros ND R; [constructor|].
    inversion ND as [|? ? Ha NDl]; subst. cbn [map]. constructor.
    + intro H. apply in_map_iff in H as (b & E & Hb). apply be_enc_inj in E; [| apply R; right; exact Hb | apply R; left; reflexivity].
      assert (b = a) by nia. subst b. contradiction.
    + apply IH; [exact NDl|]. intros i Hi. apply R. right. exact Hi.
  - intro d. unfold pre_list. rewrite in_map_iff. split.
    + intros (i & <- & Hi). rewrite be_enc_length. split; [reflexivity|].
      rewrite be_dec_enc_small by (apply R; exact Hi). rewrite Z.mod_add by lia. apply Z.mod_small. exact Hv.
    + intros (HL & E). pose proof (be_dec_range d) as B. unfold zlen in B. rewrite HL, P256 in B.
      pose proof (Z.div_mod (be_dec d) n ltac:(lia)) as DM. assert (Q : 0 <= be_dec d / n) by (apply Z.div_pos; lia).
      exists (Z.to_nat (be_dec d / n)). rewrite Z2Nat.id by exact Q. split.
      * replace (v + be_dec d / n * n) with (be_dec d) by lia. apply be_enc_dec'. exact HL.
      * apply in_seq. assert (be_dec d / n < pre_count n v) by (apply count_spec; lia). lia.
  - unfold pre_list. rewrite map_length, seq_length. lia.
Qed.

Section C77_reduction.
Context {Pr : prims}.
Add Ring ring_C77_reduction : (fe_ring_theory (n := @ord Pr)).
Lemma C77_reduction_proof {Laws : prims_ok Pr} (v : mscalar Pr) :
exists D : list bytes, NoDup D /\
    (forall d, In d D <-> length d = 32%nat /\ reduce_from d = v) /\
    Z.of_nat (length D) = 2 ^ 256 / Zpos (@ord Pr) + (if fz v <? 2 ^ 256 mod Zpos (@ord Pr) then 1 else 0).
Proof.
  destruct (pre_list_spec (Zpos (@ord Pr)) (fz v) ltac:(lia) (fz_range v)) as (ND & I & L).
  exists (pre_list (Zpos (@ord Pr)) (fz v) (Z.to_nat (pre_count (Zpos (@ord Pr)) (fz v)))).
  split; [exact ND|]. split; [|exact L]. intro d. rewrite I. unfold reduce_from.
  split; intros (HL & E); (split; [exact HL|]).
  - apply fe_ext. rewrite fz_of_Z. exact E.
  - rewrite <- E, fz_of_Z. reflexivity.
Qed.
End C77_reduction.

Section C77_nonces.
Context {Pr : prims}.
Add Ring ring_C77_nonces : (fe_ring_theory (n := @ord Pr)).
Lemma C77_nonces_proof {Laws : prims_ok Pr} (k : scalar Pr) :
exists D : list bytes, NoDup D /\
    (forall d, In d D <-> length d = 32%nat /\ nonce_scalar d = k) /\
    Z.of_nat (length D) =
      2 ^ 256 / Zpos (@ord Pr) + (if fz k <? 2 ^ 256 mod Zpos (@ord Pr) then 1 else 0)
      + (if fz k =? 1 then 2 ^ 256 / Zpos (@ord Pr) + (if 0 <? 2 ^ 256 mod Zpos (@ord Pr) then 1 else 0) else 0).
Proof.
  set (n := Zpos (@ord Pr)). assert (Hn : 0 < n) by (unfold n; lia).
  destruct (pre_list_spec n (fz k) Hn (fz_range _)) as (ND & I & L).
  destruct (pre_list_spec n 0 Hn ltac:(lia)) as (ND0 & I0 & L0).
  assert (NZ : fz (sval k) <> 0) by (intro H; apply (scalar_nz k); apply fz_zero, Z.eqb_eq; exact H).
  assert (N : forall d, nonce_scalar d = k <-> fz (sval k) = if be_dec d mod n =? 0 then 1 else be_dec d mod n).
  { intro d. pose proof (nonce_scalar_int (Pr := Pr) d) as E. cbv zeta in E. change (@n_ Pr) with n in E. change (int_from_bytes d) with (be_dec d) in E.
    split.
    - intros <-. exact E.
    - intro H. apply scalar_ext, fe_ext. rewrite E. symmetry. exact H. }
  destruct (fz k =? 1) eqn:E1.
  - apply Z.eqb_eq in E1. exists (pre_list n (fz k) (Z.to_nat (pre_count n (fz k))) ++ pre_list n 0 (Z.to_nat (pre_count n 0))).
    split; [|split].
    + apply NoDup_app_intro; [exact ND | exact ND0 |]. intros d H H'. apply I in H as [_ H]. apply I0 in H' as [_ H']. congruence.
    + intro d. rewrite in_app_iff, I, I0, N. destruct (be_dec d mod n =? 0) eqn:Z0.
      * apply Z.eqb_eq in Z0. rewrite Z0. split; [|tauto]. intros [[H E]|[H _]]; [congruence | tauto].
      * apply Z.eqb_neq in Z0. split; [|intros (H & E); left; split; [exact H | symmetry; exact E]].
        intros [[H E]|[H E]]; [split; [exact H | symmetry; exact E] | contradiction].
    + rewrite app_length, Nat2Z.inj_add, L, L0. reflexivity.
  - apply Z.eqb_neq in E1. exists (pre_list n (fz k) (Z.to_nat (pre_count n (fz k)))). split; [exact ND|]. split.
    + intro d. rewrite I, N. destruct (be_dec d mod n =? 0) eqn:Z0.
      * apply Z.eqb_eq in Z0. rewrite Z0. split; intros (_ & E); congruence.
      * split; intros (H & E); (split; [exact H | symmetry; exact E]).
    + rewrite L, Z.add_0_r. reflexivity.
Qed.
End C77_nonces.

Section SetBias.
Context {Pr : prims} {Laws : prims_ok Pr}.
(** The number of digests that give the nonce scalar [k]. *)
Definition ncount (k : scalar Pr) : Z :=
  2 ^ 256 / Zpos (@ord Pr) + (if fz k <? 2 ^ 256 mod Zpos (@ord Pr) then 1 else 0)
  + (if fz k =? 1 then 2 ^ 256 / Zpos (@ord Pr) + (if 0 <? 2 ^ 256 mod Zpos (@ord Pr) then 1 else 0) else 0).
(** The sum of a list. *)
Definition zsum (l : list Z) : Z := fold_right Z.add 0 l.
Lemma set_count (A : list (scalar Pr)) : NoDup A ->
  exists D : list bytes, NoDup D /\ (forall d, In d D <-> length d = 32%nat /\ In (nonce_scalar d) A) /\
    Z.of_nat (length D) = zsum (map ncount A).
Proof.
  induction A as [|k A IH]; intro ND.
  - exists []. split; [constructor|]. split; [|reflexivity]. intro d. cbn [In]. tauto.
  - inversion ND as [|? ? Hk NA]; subst. destruct (IH NA) as (D & DN & DI & DL).
    destruct (C77_nonces_proof k) as (E & EN & EI & EL). exists (E ++ D). split; [|split].
    + apply NoDup_app_intro; [exact EN | exact DN |]. intros d H H'. apply EI in H as [_ H]. apply DI in H' as [_ H']. congruence.
    + intro d. rewrite in_app_iff, EI, DI. cbn [In]. split; [intros [[H <-]|[H H']]; auto | intros [H [H'|H']]; [left | right]; auto].
    + rewrite app_length, Nat2Z.inj_add, DL, EL. reflexivity.
Qed.
Lemma small_count (r : Z) (A : list (scalar Pr)) : NoDup A -> 1 <= r ->
  Z.of_nat (length (filter (fun k : scalar Pr => fz k <? r) A)) <= r - 1.
Proof.
  intros ND Hr. set (F := filter _ A). assert (NF : NoDup F) by (apply NoDup_filter; exact ND).
  pose proof (pigeon (r - 1) (map (fun k : scalar Pr => fz k - 1) F)) as P. rewrite map_length in P.
  rewrite Z.max_r in P by lia. apply P.
  - apply NoDup_map_inj; [|exact NF]. intros a b _ _ E. apply scalar_ext, fe_ext. lia.
  - intros x Hx. apply in_map_iff in Hx as (k & <- & Hk). apply filter_In in Hk as [_ Hk]. apply Z.ltb_lt in Hk.
    pose proof (fz_range k). assert (fz k <> 0) by (intro H0; apply (scalar_nz k); apply fz_zero, Z.eqb_eq; exact H0). lia.
Qed.
Lemma one_count (A : list (scalar Pr)) : NoDup A ->
  Z.of_nat (length (filter (fun k : scalar Pr => fz k =? 1) A)) <= 1.
Proof.
  intros ND. set (F := filter _ A). assert (NF : NoDup F) by (apply NoDup_filter; exact ND).
  pose proof (pigeon 1 (map (fun k : scalar Pr => fz k - 1) F)) as P. rewrite map_length in P. apply P.
  - apply NoDup_map_inj; [|exact NF]. intros a b _ _ E. apply scalar_ext, fe_ext. lia.
  - intros x Hx. apply in_map_iff in Hx as (k & <- & Hk). apply filter_In in Hk as [_ Hk]. apply Z.eqb_eq in Hk. lia.
Qed.
Lemma sum_split (q r : Z) (A : list (scalar Pr)) :
  2 ^ 256 / Zpos (@ord Pr) = q -> 2 ^ 256 mod Zpos (@ord Pr) = r -> 0 < r ->
  zsum (map ncount A) = q * Z.of_nat (length A) + Z.of_nat (length (filter (fun k : scalar Pr => fz k <? r) A))
    + (q + 1) * Z.of_nat (length (filter (fun k : scalar Pr => fz k =? 1) A)).
Proof.
  intros Hq Hr Hp. induction A as [|k A IH]; [cbn [map zsum fold_right filter length]; lia|].
  cbn [map zsum fold_right filter length]. fold (zsum (map ncount A)). rewrite IH. unfold ncount. rewrite Hq, Hr.
  replace (0 <? r) with true by (symmetry; apply Z.ltb_lt; exact Hp).
  destruct (fz k <? r), (fz k =? 1); cbn [length]; lia.
Qed.
End SetBias.

Lemma C77_secp_bias_proof (r : bytes -> nat -> positive) (A : list (scalar (Secp r))) (HA : NoDup A) :
2 ^ 256 - py_n + 1 < 2 ^ 129 /\
  exists D : list bytes, NoDup D /\
    (forall d, In d D <-> length d = 32%nat /\ In (nonce_scalar d) A) /\
    Z.of_nat (length A) <= Z.of_nat (length D) <= Z.of_nat (length A) + (2 ^ 256 - py_n + 1).
Proof.
  split; [reflexivity|]. destruct (@set_count (Secp r) (Secp_ok r) A HA) as (D & DN & DI & DL).
  exists D. split; [exact DN|]. split; [exact DI|]. rewrite DL.
  rewrite (@sum_split (Secp r) 1 (2 ^ 256 - py_n) A) by reflexivity.
  pose proof (@small_count (Secp r) (2 ^ 256 - py_n) A HA ltac:(vm_compute; discriminate)) as S1.
  pose proof (@one_count (Secp r) A HA) as S2. lia.
Qed.
