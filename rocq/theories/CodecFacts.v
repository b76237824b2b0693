(** Scalars and points as bytes: lengths, injectivity, round trips. *)
From Verif Require Import Bytes BytesFacts Prims PrimsFacts.
Open Scope Z_scope.

Lemma firstn_app_exact {A} (a b : list A) n : length a = n -> firstn n (a ++ b) = a.
Proof. intros <-. rewrite firstn_app, Nat.sub_diag, firstn_all, firstn_O, app_nil_r. reflexivity. Qed.
Lemma skipn_app_exact {A} (a b : list A) n : length a = n -> skipn n (a ++ b) = b.
Proof. intros <-. rewrite skipn_app, Nat.sub_diag, skipn_all, skipn_O. reflexivity. Qed.

Section Codec.
Context {Pr : prims} {Ok_ : prims_ok Pr}.

Lemma ser_scalar_len (a : mscalar Pr) : length (ser_scalar a) = 32%nat.
Proof. apply be_enc_length. Qed.

Lemma be_dec_ser_scalar (a : mscalar Pr) : be_dec (ser_scalar a) = fz a.
Proof.
  apply be_dec_enc_small. pose proof (fz_range a). pose proof ord_small.
  change (Z.of_nat 32) with 32. lia.
Qed.

Lemma ser_scalar_inj (a b : mscalar Pr) : ser_scalar a = ser_scalar b -> a = b.
Proof. intro H. apply fe_ext. rewrite <- !be_dec_ser_scalar, H. reflexivity. Qed.

Lemma parse_mscalar_Some b (a : mscalar Pr) : parse_mscalar b = Some a <-> b = ser_scalar a.
Proof.
  unfold parse_mscalar. split.
  - destruct (length b =? 32)%nat eqn:L; [|discriminate].
    destruct (be_dec b <? Zpos ord) eqn:E; [|discriminate]. cbn [andb].
    intro H; injection H as <-. apply Nat.eqb_eq in L. apply Z.ltb_lt in E.
    unfold ser_scalar. rewrite fz_of_Z. pose proof (be_dec_range b).
    rewrite Z.mod_small by lia. symmetry. apply be_enc_dec'. assumption.
  - intros ->. rewrite ser_scalar_len, be_dec_ser_scalar. pose proof (fz_range a).
    rewrite (proj2 (Z.ltb_lt _ _)) by lia. cbn [andb Nat.eqb]. rewrite of_Z_fz. reflexivity.
Qed.

Lemma parse_mscalar_None b : parse_mscalar b = None <-> length b <> 32%nat \/ Zpos (@ord Pr) <= be_dec b.
Proof.
  unfold parse_mscalar.
  destruct (Nat.eqb_spec (length b) 32) as [L|L]; cbn [andb].
  - destruct (Z.ltb_spec (be_dec b) (Zpos ord)); split; intro H'; try discriminate; try lia; reflexivity.
  - split; [left; assumption | reflexivity].
Qed.

Lemma parse_mscalar_ser (a : mscalar Pr) : parse_mscalar (ser_scalar a) = Some a.
Proof. apply parse_mscalar_Some. reflexivity. Qed.

Lemma parse_scalar_Some b (a : scalar Pr) : parse_scalar b = Some a <-> b = ser_scalar a.
Proof.
  unfold parse_scalar. split.
  - destruct (parse_mscalar b) as [m|] eqn:E; [|discriminate]. intro H.
    apply not_zero_Some in H. subst m. apply parse_mscalar_Some. assumption.
  - intros ->. rewrite parse_mscalar_ser. apply not_zero_scalar.
Qed.

Lemma parse_scalar_ser (a : scalar Pr) : parse_scalar (ser_scalar a) = Some a.
Proof. apply parse_scalar_Some. reflexivity. Qed.

Lemma parse_scalar_None b :
  parse_scalar b = None <-> length b <> 32%nat \/ be_dec b = 0 \/ Zpos (@ord Pr) <= be_dec b.
Proof.
  unfold parse_scalar. destruct (parse_mscalar b) as [m|] eqn:E.
  - apply parse_mscalar_Some in E. rewrite not_zero_None. subst b.
    rewrite ser_scalar_len, be_dec_ser_scalar. pose proof (fz_range m). split.
    + intros ->. right; left. apply fz_of_Z.
    + intros [H1 | [H1 | H1]]; try lia. apply fe_ext. rewrite H1. symmetry. apply fz_of_Z.
  - apply parse_mscalar_None in E. split; [intros _ | reflexivity]. tauto.
Qed.

Lemma lift_x_Some b (P : point Pr) : lift_x b = Some P <-> pt_odd P = false /\ pt_x P = b.
Proof.
  unfold lift_x. split.
  - destruct (pt_lift b) as [Q|] eqn:E; [|discriminate]. intro H.
    apply not_inf_Some in H. subst Q. apply lift_spec in E. tauto.
  - intros [H1 H2]. assert (E : pt_lift b = Some (pval P)).
    { apply lift_spec. auto using point_fin. }
    rewrite E. apply not_inf_point.
Qed.

Lemma lift_x_x (P : point Pr) : lift_x (pt_x P) = Some (even_point P).
Proof.
  apply lift_x_Some. rewrite even_point_val, to_even_y_x. split; [|reflexivity].
  apply to_even_y_odd, point_fin.
Qed.

Lemma lift_x_None b : lift_x b = None <-> forall P : point Pr, pt_x P <> b.
Proof.
  split.
  - intros H P <-. rewrite lift_x_x in H. discriminate.
  - intro H. destruct (lift_x b) as [P|] eqn:E; [|reflexivity].
    apply lift_x_Some in E. destruct (H P). tauto.
Qed.

Lemma ser_point_len (P : point Pr) : length (ser_point P) = 33%nat.
Proof. unfold ser_point. cbn [length]. rewrite x_len. reflexivity. Qed.

Lemma ser_point_inj (P Q : point Pr) : ser_point P = ser_point Q -> P = Q.
Proof.
  unfold ser_point. intro H. injection H as Hp Hx.
  assert (Ho : pt_odd P = pt_odd Q) by (destruct (pt_odd P), (pt_odd Q); congruence || reflexivity).
  apply point_ext. destruct (x_inj P Q (point_fin P) (point_fin Q) Hx) as [E | E]; [exact E|].
  rewrite E, odd_neg in Ho by apply point_fin. destruct (pt_odd Q); discriminate.
Qed.

Lemma parse_point_ser (P : point Pr) : parse_point (ser_point P) = Some P.
Proof.
  unfold parse_point. rewrite ser_point_len. cbn [Nat.eqb negb]. unfold ser_point.
  rewrite lift_x_x. destruct (pt_odd P) eqn:E.
  - change (Byte.eqb x03 x02) with false. change (Byte.eqb x03 x03) with true. cbv iota.
    f_equal. apply point_ext.
    rewrite neg_point_val, even_point_val. unfold to_even_y. rewrite E. cbn [pneg_if]. apply neg_neg.
  - change (Byte.eqb x02 x02) with true. cbv iota. f_equal. apply point_ext.
    rewrite even_point_val. apply to_even_y_even. assumption.
Qed.

Lemma parse_point_Some b (P : point Pr) : parse_point b = Some P <-> b = ser_point P.
Proof.
  split; [|intros ->; apply parse_point_ser].
  unfold parse_point.
  destruct (Nat.eqb_spec (length b) 33) as [L|L]; cbn [negb]; [|discriminate].
  destruct b as [|h xb]; [discriminate|].
  destruct (lift_x xb) as [Q|] eqn:E; [|discriminate].
  apply lift_x_Some in E as [E1 E2]. unfold ser_point.
  destruct (Byte.eqb h x02) eqn:H2.
  - apply byte_eqb_eq in H2. intro H; injection H as <-. rewrite E1, E2, H2. reflexivity.
  - destruct (Byte.eqb h x03) eqn:H3; [|discriminate].
    apply byte_eqb_eq in H3. intro H; injection H as <-.
    rewrite neg_point_val, odd_neg, x_neg, E1, E2, H3 by apply point_fin. reflexivity.
Qed.

Lemma ser_point_nonzero (P : point Pr) : ser_point P <> zeros 33.
Proof. unfold ser_point. cbn [zeros repeat]. destruct (pt_odd P); discriminate. Qed.

Lemma ser_mpoint_point (P : point Pr) : ser_mpoint P = ser_point P.
Proof. unfold ser_mpoint. rewrite not_inf_point. reflexivity. Qed.

Lemma ser_mpoint_O : ser_mpoint (Pr := Pr) pt_O = zeros 33.
Proof. unfold ser_mpoint. rewrite (proj2 (not_inf_None pt_O)) by reflexivity. reflexivity. Qed.

Lemma mpoint_cases (P : pt) : P = pt_O \/ exists Q : point Pr, P = pval Q.
Proof.
  destruct (pt_eq_dec P pt_O) as [->|H]; [left; reflexivity | right].
  destruct (not_inf_fin P H) as [Q [_ H2]]. exists Q. auto.
Qed.

Lemma ser_mpoint_len (P : pt) : length (ser_mpoint P) = 33%nat.
Proof.
  destruct (mpoint_cases P) as [-> | [Q ->]].
  - rewrite ser_mpoint_O. apply zeros_length.
  - rewrite ser_mpoint_point. apply ser_point_len.
Qed.

Lemma ser_mpoint_inj (P Q : pt) : ser_mpoint P = ser_mpoint Q -> P = Q.
Proof.
  destruct (mpoint_cases P) as [-> | [P' ->]]; destruct (mpoint_cases Q) as [-> | [Q' ->]];
    rewrite ?ser_mpoint_O, ?ser_mpoint_point; intro H.
  - reflexivity.
  - destruct (ser_point_nonzero Q'). auto.
  - destruct (ser_point_nonzero P'). auto.
  - f_equal. apply ser_point_inj. assumption.
Qed.

Lemma parse_mpoint_ser (P : pt) : parse_mpoint (ser_mpoint P) = Some P.
Proof.
  unfold parse_mpoint. destruct (mpoint_cases P) as [-> | [Q ->]].
  - rewrite ser_mpoint_O, bytes_eqb_refl. reflexivity.
  - rewrite ser_mpoint_point, (proj2 (bytes_eqb_neq _ _)) by apply ser_point_nonzero.
    rewrite parse_point_ser. reflexivity.
Qed.

Lemma parse_mpoint_Some b (P : pt) : parse_mpoint b = Some P <-> b = ser_mpoint P.
Proof.
  split; [|intros ->; apply parse_mpoint_ser].
  unfold parse_mpoint. destruct (bytes_eqb b (zeros 33)) eqn:E.
  - apply bytes_eqb_eq in E. intro H; injection H as <-. rewrite ser_mpoint_O. assumption.
  - destruct (parse_point b) as [Q|] eqn:E2; [|discriminate]. intro H; injection H as <-.
    rewrite ser_mpoint_point. apply parse_point_Some. assumption.
Qed.

End Codec.
