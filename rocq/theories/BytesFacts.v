(** Lemmas about byte strings. *)
From Verif Require Import Bytes.
Open Scope Z_scope.

Lemma byte_eqb_eq a b : Byte.eqb a b = true <-> a = b.
Proof.
  split; [apply Byte.byte_dec_bl | apply Byte.byte_dec_lb].
Qed.

Lemma bytes_eqb_eq a b : bytes_eqb a b = true <-> a = b.
Proof.
  revert b; induction a as [|x a IH]; intros [|y b]; simpl; split; intro H;
    try reflexivity; try discriminate.
  - apply andb_true_iff in H as [H1 H2].
    apply byte_eqb_eq in H1. apply IH in H2. congruence.
  - injection H as -> ->. apply andb_true_iff; split.
    + apply byte_eqb_eq; reflexivity.
    + apply IH; reflexivity.
Qed.

Lemma bytes_eqb_refl a : bytes_eqb a a = true.
Proof. apply bytes_eqb_eq; reflexivity. Qed.

Lemma bytes_eqb_neq a b : bytes_eqb a b = false <-> a <> b.
Proof.
  destruct (bytes_eqb a b) eqn:E.
  - apply bytes_eqb_eq in E. split; intro H; [discriminate | contradiction].
  - split; intros H; [|reflexivity]. intros ->. rewrite bytes_eqb_refl in E. discriminate.
Qed.

Lemma bytes_eq_dec (a b : bytes) : {a = b} + {a <> b}.
Proof.
  destruct (bytes_eqb a b) eqn:E; [left | right].
  - apply bytes_eqb_eq; assumption.
  - apply bytes_eqb_neq; assumption.
Qed.

Lemma b2z_range b : 0 <= b2z b < 256.
Proof. unfold b2z. pose proof (Byte.to_N_bounded b). lia. Qed.

Lemma b2z_z2b z : b2z (z2b z) = z mod 256.
Proof.
  unfold b2z, z2b.
  pose proof (Z.mod_pos_bound z 256 ltac:(lia)).
  destruct (Byte.of_N (Z.to_N (z mod 256))) eqn:E.
  - apply Byte.to_of_N in E. rewrite E. lia.
  - apply Byte.of_N_None_iff in E. lia.
Qed.

Lemma z2b_b2z b : z2b (b2z b) = b.
Proof.
  unfold b2z, z2b.
  pose proof (Byte.to_N_bounded b).
  rewrite Z.mod_small by lia. rewrite N2Z.id, Byte.of_to_N. reflexivity.
Qed.

Lemma b2z_inj a b : b2z a = b2z b -> a = b.
Proof. intro H. rewrite <- (z2b_b2z a), <- (z2b_b2z b), H. reflexivity. Qed.

Lemma z2b_mod z : z2b (z mod 256) = z2b z.
Proof. apply b2z_inj. rewrite !b2z_z2b, Z.mod_mod by lia. reflexivity. Qed.

Lemma be_enc_acc_app k z acc : be_enc_acc k z acc = be_enc_acc k z [] ++ acc.
Proof.
  revert z acc; induction k as [|k IH]; intros z acc; simpl; [reflexivity|].
  rewrite IH, (IH _ [z2b z]), <- app_assoc. reflexivity.
Qed.

Lemma be_enc_S k z : be_enc (S k) z = be_enc k (z / 256) ++ [z2b z].
Proof. unfold be_enc; simpl. apply be_enc_acc_app. Qed.

Lemma be_enc_length k z : length (be_enc k z) = k.
Proof.
  revert z; induction k as [|k IH]; intros z; [reflexivity|].
  rewrite be_enc_S, app_length, IH. simpl. lia.
Qed.

Lemma be_dec_snoc b x : be_dec (b ++ [x]) = be_dec b * 256 + b2z x.
Proof. unfold be_dec. rewrite fold_left_app. reflexivity. Qed.

Lemma be_dec_range b : 0 <= be_dec b < 256 ^ zlen b.
Proof.
  unfold zlen. induction b as [|x b IH] using rev_ind; [cbv; intuition congruence|].
  rewrite be_dec_snoc, app_length. pose proof (b2z_range x).
  replace (Z.of_nat (length b + length [x])) with (Z.succ (Z.of_nat (length b)))
    by (simpl; lia).
  rewrite Z.pow_succ_r by lia. lia.
Qed.

Lemma be_dec_enc k z : be_dec (be_enc k z) = z mod 256 ^ Z.of_nat k.
Proof.
  revert z; induction k as [|k IH]; intros z.
  - simpl. rewrite Z.mod_1_r. reflexivity.
  - rewrite be_enc_S, be_dec_snoc, IH, b2z_z2b, Nat2Z.inj_succ, Z.pow_succ_r by lia.
    assert (0 < 256 ^ Z.of_nat k) by (apply Z.pow_pos_nonneg; lia).
    rewrite Z.rem_mul_r by lia. lia.
Qed.

Lemma be_dec_enc_small k z :
  0 <= z < 256 ^ Z.of_nat k -> be_dec (be_enc k z) = z.
Proof. intro H. rewrite be_dec_enc, Z.mod_small; auto. Qed.

Lemma be_enc_dec b : be_enc (length b) (be_dec b) = b.
Proof.
  induction b as [|x b IH] using rev_ind; [reflexivity|].
  rewrite app_length. replace (length b + length [x])%nat with (S (length b)) by (simpl; lia).
  rewrite be_enc_S, be_dec_snoc. pose proof (b2z_range x).
  replace ((be_dec b * 256 + b2z x) / 256) with (be_dec b)
    by (rewrite Z.div_add_l, Z.div_small by lia; lia).
  rewrite IH. f_equal. f_equal. apply b2z_inj. rewrite b2z_z2b.
  rewrite Z.add_comm, Z.mod_add, Z.mod_small by lia. reflexivity.
Qed.

Lemma be_enc_dec' k b : length b = k -> be_enc k (be_dec b) = b.
Proof. intros <-. apply be_enc_dec. Qed.

Lemma be_enc_inj k y z :
  0 <= y < 256 ^ Z.of_nat k -> 0 <= z < 256 ^ Z.of_nat k ->
  be_enc k y = be_enc k z -> y = z.
Proof.
  intros Hy Hz E. rewrite <- (be_dec_enc_small k y Hy), <- (be_dec_enc_small k z Hz), E.
  reflexivity.
Qed.

Lemma be_dec_inj a b : length a = length b -> be_dec a = be_dec b -> a = b.
Proof. intros HL E. rewrite <- (be_enc_dec a), <- (be_enc_dec b), HL, E. reflexivity. Qed.

Lemma app_inj_len {A} (a b c d : list A) :
  length a = length c -> a ++ b = c ++ d -> a = c /\ b = d.
Proof.
  revert c; induction a as [|x a IH]; intros [|y c] HL E; simpl in *; try discriminate.
  - auto.
  - injection E as -> E. apply IH in E as [-> ->]; auto.
Qed.

Lemma app_inj_len_r {A} (a b c d : list A) :
  length b = length d -> a ++ b = c ++ d -> a = c /\ b = d.
Proof.
  intros HL E. apply app_inj_len; auto.
  apply (f_equal (@length A)) in E. rewrite !app_length in E. lia.
Qed.

Lemma zeros_length n : length (zeros n) = n.
Proof. apply repeat_length. Qed.

Lemma be_dec_zeros n : be_dec (zeros n) = 0.
Proof.
  unfold zeros. induction n as [|n IH]; [reflexivity|].
  replace (S n) with (n + 1)%nat by lia. rewrite repeat_app. simpl.
  rewrite be_dec_snoc, IH. reflexivity.
Qed.

(** Xor. *)
Lemma xor_byte_to_N a b : Byte.to_N (xor_byte a b) = N.lxor (Byte.to_N a) (Byte.to_N b).
Proof.
  unfold xor_byte.
  destruct (Byte.of_N (N.lxor (Byte.to_N a) (Byte.to_N b))) eqn:E.
  - apply Byte.to_of_N in E. exact E.
  - exfalso. apply Byte.of_N_None_iff in E.
    pose proof (Byte.to_N_bounded a) as Ha. pose proof (Byte.to_N_bounded b) as Hb.
    assert (N.lxor (Byte.to_N a) (Byte.to_N b) < 2 ^ 8)%N; [|lia].
    destruct (N.eq_dec (N.lxor (Byte.to_N a) (Byte.to_N b)) 0) as [->|Hn]; [lia|].
    apply N.log2_lt_pow2; [lia|].
    eapply N.le_lt_trans; [apply N.log2_lxor|].
    apply N.max_lub_lt.
    + destruct (N.eq_dec (Byte.to_N a) 0) as [->|]; [simpl; lia|]. apply N.log2_lt_pow2; lia.
    + destruct (N.eq_dec (Byte.to_N b) 0) as [->|]; [simpl; lia|]. apply N.log2_lt_pow2; lia.
Qed.

Lemma to_N_inj a b : Byte.to_N a = Byte.to_N b -> a = b.
Proof. intro H. apply b2z_inj. unfold b2z. congruence. Qed.

Lemma xor_byte_0_l a : xor_byte x00 a = a.
Proof. apply to_N_inj. rewrite xor_byte_to_N. apply N.lxor_0_l. Qed.

Lemma xor_byte_comm a b : xor_byte a b = xor_byte b a.
Proof. apply to_N_inj. rewrite !xor_byte_to_N. apply N.lxor_comm. Qed.

Lemma xor_byte_inv a b : xor_byte a (xor_byte a b) = b.
Proof.
  apply to_N_inj. rewrite !xor_byte_to_N, <- N.lxor_assoc, N.lxor_nilpotent.
  apply N.lxor_0_l.
Qed.

Lemma xor_bytes_length a b :
  length a = length b -> length (xor_bytes a b) = length a.
Proof.
  revert b; induction a as [|x a IH]; intros [|y b] H; simpl in *; try discriminate; auto.
Qed.

Lemma xor_bytes_zeros_l n b : length b = n -> xor_bytes (zeros n) b = b.
Proof.
  revert b; induction n as [|n IH]; intros [|y b] H; simpl in *; try discriminate; auto.
  injection H as H. rewrite xor_byte_0_l. f_equal. apply IH; assumption.
Qed.

Lemma xor_bytes_comm a b : xor_bytes a b = xor_bytes b a.
Proof.
  revert b; induction a as [|x a IH]; intros [|y b]; simpl; auto.
  rewrite xor_byte_comm, IH. reflexivity.
Qed.

Lemma xor_bytes_inv a b : length a = length b -> xor_bytes a (xor_bytes a b) = b.
Proof.
  revert b; induction a as [|x a IH]; intros [|y b] H; simpl in *; try discriminate; auto.
  rewrite xor_byte_inv. f_equal. apply IH. lia.
Qed.

Lemma xor_bytes_inj_r a b c :
  length a = length b -> length a = length c -> xor_bytes a b = xor_bytes a c -> b = c.
Proof.
  intros Hb Hc E. rewrite <- (xor_bytes_inv a b Hb), <- (xor_bytes_inv a c Hc), E. reflexivity.
Qed.
