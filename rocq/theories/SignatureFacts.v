(** Lemmas about signature values: encodings, adapting, encrypting, revealing. *)
From Coq Require Import List.
From Verif Require Import Bytes BytesFacts Prims PrimsFacts CodecFacts TaggedHashes Errors
  KeyAgg Nonces Signature Signing SigAgg Bip340 SigningFacts.
Import ListNotations.
Open Scope Z_scope.

Section SignatureFacts.
Context {Pr : prims} {Ok_ : prims_ok Pr}.
Add Ring fring : (fe_ring_theory (n := @ord Pr)).

Lemma Ok_inj {E A} (a b : A) : @Ok E A a = Ok b -> a = b.
Proof. congruence. Qed.

(** *** Encodings *)

Lemma compact_from_parts rx (s : mscalar Pr) : length rx = 32%nat ->
  compact_from_bytes (rx ++ ser_scalar s) = Ok {| c_rx := rx; c_s := s |}.
Proof.
  intro H. unfold compact_from_bytes. rewrite app_length, H, ser_scalar_len. cbn [Nat.add Nat.eqb negb].
  rewrite skipn_app_exact, firstn_app_exact by assumption. rewrite parse_mscalar_ser. reflexivity.
Qed.
Lemma compact_of_lifted_bytes (sg : lifted_sig Pr) : compact_from_bytes (lifted_to_bytes sg) = Ok (compact sg).
Proof. unfold lifted_to_bytes, compact_to_bytes. apply compact_from_parts. apply x_len. Qed.

Lemma compact_decode b (sg : compact_sig Pr) :
  compact_from_bytes b = Ok sg <-> b = compact_to_bytes sg /\ length (c_rx sg) = 32%nat.
Proof.
  split.
  - unfold compact_from_bytes. destruct (Nat.eqb_spec (length b) 64) as [H|H]; cbn [negb]; [|discriminate].
    destruct (parse_mscalar (skipn 32 b)) as [s|] eqn:E; [|discriminate]. intro HH. apply Ok_inj in HH. subst sg.
    apply parse_mscalar_Some in E. unfold compact_to_bytes. cbn [c_rx c_s].
    split; [rewrite <- E; symmetry; apply firstn_skipn | rewrite firstn_length; lia].
  - intros [-> H]. destruct sg as [rx s]. apply compact_from_parts. exact H.
Qed.

Lemma lift_nonce_Some (cs : compact_sig Pr) l :
  lift_nonce cs = Some l <-> pt_odd (l_R l) = false /\ c_rx cs = pt_x (l_R l) /\ c_s cs = l_s l.
Proof.
  unfold lift_nonce. destruct (lift_x (c_rx cs)) as [R|] eqn:E.
  - apply lift_x_Some in E as [E1 E2]. split.
    + intro H; injection H as <-. cbn [l_R l_s]. auto.
    + intros (H1 & H2 & H3). f_equal. destruct l as [R' s]. cbn [l_R l_s] in *. f_equal; [|congruence].
      assert (HH : lift_x (pt_x R') = Some R') by (apply lift_x_Some; auto).
      assert (HH2 : lift_x (pt_x R') = Some R) by (apply lift_x_Some; split; congruence).
      congruence.
  - split; [discriminate|]. intros (H1 & H2 & H3).
    assert (HH : lift_x (pt_x (l_R l)) = Some (l_R l)) by (apply lift_x_Some; auto). congruence.
Qed.

Lemma lifted_decode b (sg : lifted_sig Pr) :
  lifted_from_bytes b = Ok sg <-> b = lifted_to_bytes sg /\ pt_odd (l_R sg) = false.
Proof.
  unfold lifted_from_bytes. split.
  - destruct (compact_from_bytes b) as [cs| |] eqn:E; cbn [bind]; try discriminate.
    destruct (lift_nonce cs) as [l|] eqn:EL; cbn [ok_or]; [|discriminate]. intro H; injection H as <-.
    apply compact_decode in E as [-> _]. apply lift_nonce_Some in EL as (H1 & H2 & H3).
    split; [|assumption]. unfold lifted_to_bytes, compact, compact_new, compact_to_bytes. cbn [c_rx c_s]. congruence.
  - intros [-> H]. rewrite compact_of_lifted_bytes. cbn [bind].
    rewrite (proj2 (lift_nonce_Some (compact sg) sg)) by (split; [assumption | split; reflexivity]). reflexivity.
Qed.

Lemma adaptor_decode b (sg : adaptor_sig Pr) : adaptor_from_bytes b = Ok sg <-> b = adaptor_to_bytes sg.
Proof.
  unfold adaptor_from_bytes, adaptor_to_bytes. split.
  - destruct (Nat.eqb_spec (length b) 65) as [H|H]; cbn [negb]; [|discriminate].
    destruct (parse_mpoint (firstn 33 b)) as [R|] eqn:E1; [|discriminate].
    destruct (parse_mscalar (skipn 33 b)) as [s|] eqn:E2; [|discriminate]. intro HH; injection HH as <-.
    apply parse_mpoint_Some in E1. apply parse_mscalar_Some in E2. cbn [a_R a_s].
    rewrite <- E1, <- E2. symmetry. apply firstn_skipn.
  - intros ->. rewrite app_length, ser_mpoint_len, ser_scalar_len. cbn [Nat.add Nat.eqb negb].
    rewrite firstn_app_exact, skipn_app_exact by apply ser_mpoint_len.
    rewrite parse_mpoint_ser, parse_mscalar_ser. destruct sg; reflexivity.
Qed.

(** *** Adapting, encrypting, revealing *)

Lemma to_even_y_cases P : to_even_y P = P \/ to_even_y P = pt_neg P.
Proof. unfold to_even_y. destruct (pt_odd P); cbn [pneg_if]; auto. Qed.

(** What [reveal_secret] returns, adapts. *)
Lemma reveal_sound sg (final : lifted_sig Pr) x : pt_odd (l_R final) = false ->
  reveal_secret sg final = Some x -> adapt sg x = Some final.
Proof.
  intros Ho. unfold reveal_secret. set (d := fsub (l_s final) (a_s sg)).
  assert (Hs : l_s final = fadd (a_s sg) d) by (unfold d; ring).
  destruct (pt_eqb (gmul d) (psub (l_R final) (a_R sg))) eqn:E1.
  - intro H; injection H as <-. apply pt_eqb_eq in E1. apply adapt_Some.
    assert (HN : pt_add (a_R sg) (gmul d) = l_R final).
    { rewrite E1. unfold psub. rewrite add_comm, add_assoc, add_neg_l, add_O_r. reflexivity. }
    rewrite HN. split; [apply point_fin|]. rewrite to_even_y_even by assumption. split; [reflexivity|].
    rewrite Ho. exact Hs.
  - destruct (pt_eqb (gmul d) (pt_add (l_R final) (a_R sg))) eqn:E2; [|discriminate].
    intro H; injection H as <-. apply pt_eqb_eq in E2. apply adapt_Some.
    assert (HN : pt_add (a_R sg) (gmul (fneg d)) = pt_neg (l_R final)).
    { rewrite gmul_neg, E2, neg_add. rewrite (add_comm (pt_neg _)), <- add_assoc, add_neg_r, add_O_l. reflexivity. }
    rewrite HN. split; [rewrite neg_eq_O; apply point_fin|].
    rewrite to_even_y_neg by apply point_fin. rewrite to_even_y_even by assumption. split; [reflexivity|].
    rewrite odd_neg by apply point_fin. rewrite Ho. cbn [negb fneg_if]. rewrite Hs. ring.
Qed.

(** Every secret that adapts is found, up to sign. *)
Lemma reveal_complete sg (final : lifted_sig Pr) t :
  adapt sg t = Some final -> reveal_secret sg final = Some t \/
    (a_R sg = pt_O /\ reveal_secret sg final = Some (fneg t)).
Proof.
  intro H. apply adapt_Some in H as (HN & HR & Hs). unfold reveal_secret.
  set (d := fsub (l_s final) (a_s sg)).
  assert (Hd : d = fneg_if (pt_odd (pt_add (a_R sg) (gmul t))) t) by (unfold d; rewrite Hs; ring).
  rewrite Hd, HR. unfold to_even_y. destruct (pt_odd (pt_add (a_R sg) (gmul t))); cbn [fneg_if pneg_if].
  - destruct (pt_eqb (gmul (fneg t)) (psub (pt_neg (pt_add (a_R sg) (gmul t))) (a_R sg))) eqn:E.
    + apply pt_eqb_eq in E. right. destruct (dlog (a_R sg)) as [r Hr]. rewrite Hr in *.
      split; [|f_equal].
      rewrite <- gmul_add, <- gmul_neg, <- gmul_sub in E. apply gmul_inj in E.
      assert (E2 : fadd r r = fzero).
      { replace (fadd r r) with (fsub (fneg t) (fsub (fneg (fadd r t)) r)) by ring. rewrite <- E. ring. }
      destruct (pt_eq_dec (gmul r) pt_O) as [|Hne]; [assumption|].
      exfalso. (* r + r = 0: then the point equals its negation, contradicting parity *)
      assert (Hneg : pt_neg (gmul r) = gmul r).
      { rewrite <- gmul_neg. f_equal. replace (fneg r) with (fsub r (fadd r r)) by ring. rewrite E2. ring. }
      pose proof (odd_neg (gmul r) Hne) as Hodd. rewrite Hneg in Hodd. destruct (pt_odd (gmul r)); discriminate.
    + left. rewrite (proj2 (pt_eqb_eq _ _)).
      * f_equal. ring.
      * rewrite gmul_neg, neg_add. rewrite (add_comm (pt_neg (a_R sg))), add_assoc, add_neg_l, add_O_r. reflexivity.
  - left. rewrite (proj2 (pt_eqb_eq _ _)); [reflexivity|].
    unfold psub. rewrite (add_comm (a_R sg)), add_assoc, add_neg_r, add_O_r. reflexivity.
Qed.

Lemma reveal_None sg (final : lifted_sig Pr) : pt_odd (l_R final) = false ->
  (reveal_secret sg final = None <-> forall t, adapt sg t <> Some final).
Proof.
  intro Ho. split.
  - intros H t Ht. destruct (reveal_complete _ _ _ Ht) as [E|[_ E]]; congruence.
  - intro H. destruct (reveal_secret sg final) as [x|] eqn:E; [|reflexivity].
    destruct (H x). apply reveal_sound; assumption.
Qed.

(** Folding encryptions. *)
Lemma encrypt_fold (ts : list (scalar Pr)) sg :
  fold_left adaptor_encrypt ts sg =
  {| a_R := psub (a_R sg) (gmul (fsum (map sval ts))); a_s := fsub (a_s sg) (fsum (map sval ts)) |}.
Proof.
  revert sg. induction ts as [|t ts IH]; intro sg; cbn [fold_left map].
  - rewrite fsum_nil, gmul_0. unfold psub. rewrite neg_O, add_O_r. destruct sg as [R s]. cbn [a_R a_s]. f_equal. ring.
  - rewrite IH, fsum_cons. unfold adaptor_encrypt. cbn [a_R a_s]. f_equal; [|ring].
    unfold psub. rewrite gmul_add, neg_add, add_assoc. reflexivity.
Qed.

Lemma encrypt_adapt (ts : list (scalar Pr)) (sg : lifted_sig Pr) : pt_odd (l_R sg) = false ->
  adapt (fold_left adaptor_encrypt ts (adaptor_new (l_R sg) (l_s sg))) (fsum (map sval ts)) = Some sg.
Proof.
  intro Ho. rewrite encrypt_fold. apply adapt_Some. cbn [a_R a_s adaptor_new].
  assert (E : pt_add (psub (l_R sg) (gmul (fsum (map sval ts)))) (gmul (fsum (map sval ts))) = l_R sg).
  { unfold psub. rewrite add_assoc, add_neg_l, add_O_r. reflexivity. }
  rewrite E, Ho. split; [apply point_fin|]. rewrite to_even_y_even by assumption. split; [reflexivity|].
  cbn [fneg_if]. ring.
Qed.

(** Encrypting an adaptor signature: adapting with the sum. *)
Lemma reencrypt_adapt sg (t : mscalar Pr) (u : scalar Pr) :
  match adapt sg t, adapt (adaptor_encrypt sg u) (fadd t u) with
  | None, None => pt_add (a_R sg) (gmul t) = pt_O
  | Some l, Some l' =>
      l_R l' = l_R l /\ l_s l' = fsub (l_s l) (if pt_odd (pt_add (a_R sg) (gmul t)) then fadd u u else fzero)
  | _, _ => False
  end.
Proof.
  assert (E : pt_add (a_R (adaptor_encrypt sg u)) (gmul (fadd t u)) = pt_add (a_R sg) (gmul t)).
  { unfold adaptor_encrypt, psub. cbn [a_R]. rewrite gmul_add, add_assoc. f_equal.
    rewrite add_comm, add_assoc, add_neg_r, add_O_r. reflexivity. }
  destruct (adapt sg t) as [l|] eqn:E1, (adapt (adaptor_encrypt sg u) (fadd t u)) as [l'|] eqn:E2.
  - apply adapt_Some in E1 as (A1 & A2 & A3). apply adapt_Some in E2 as (B1 & B2 & B3).
    rewrite E in *. split; [apply point_ext; congruence|]. rewrite B3, A3. cbn [a_s adaptor_encrypt].
    destruct (pt_odd (pt_add (a_R sg) (gmul t))); cbn [fneg_if]; ring.
  - apply adapt_None in E2. apply adapt_Some in E1 as (A1 & _). congruence.
  - apply adapt_None in E1. apply adapt_Some in E2 as (A1 & _). congruence.
  - apply adapt_None in E1. exact E1.
Qed.

Lemma double_nz (u : scalar Pr) : fadd (sval u) u <> fzero.
Proof.
  intro H. pose proof (base_mul_val u) as HB.
  assert (Hne : gmul u <> pt_O) by (rewrite gmul_eq_O; apply scalar_nz).
  assert (Hneg : pt_neg (gmul u) = gmul u).
  { rewrite <- gmul_neg. f_equal. replace (fneg u) with (fsub u (fadd (sval u) u)) by ring. rewrite H. ring. }
  pose proof (odd_neg (gmul u) Hne) as Hodd. rewrite Hneg in Hodd. destruct (pt_odd (gmul u)); discriminate.
Qed.

End SignatureFacts.
