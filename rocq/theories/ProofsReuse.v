(** Proofs of the theorems of PropertiesReuse.v. *)
From Coq Require Import String List.
From Verif Require Import Bytes BytesFacts Prims PrimsFacts TaggedHashes Errors SpecTags SpecBIP327
  KeyAgg Nonces Signing SpecCtx SpecView SpecSession SpecReuse Toy ToyData ToyReuse.
Import ListNotations.
Open Scope list_scope.
Open Scope Z_scope.
From Coq Require Import Lia.
From Verif Require Import CodecFacts KeyAggFacts NoncesFacts SigningFacts SpecFacts SpecSigning SessionFacts EncodingFacts.
Open Scope Z_scope.

Section Reuse.
Context {Pr : prims} {Laws : prims_ok Pr} {Tags : tags_ok Pr}.
Add Ring fring0 : (fe_ring_theory (n := @ord Pr)).

(** Whether the nonces of a use are negated. *)
Definition u_odd (u : use Pr) : bool := pt_odd (sess_A (use_ctx u) (use_aggnonce u) (use_adaptor u) (use_message u)).
(** The nonce coefficient of a use. *)
Definition u_b (u : use Pr) : mscalar Pr := sess_b (use_ctx u) (use_aggnonce u) (use_message u).
(** The multiple of the key in a use. *)
Definition u_w (pk : point Pr) (u : use Pr) : mscalar Pr :=
  fneg_if (u_odd u) (fneg_if (sess_par (use_ctx u))
    (fmul (sess_e (use_ctx u) (use_aggnonce u) (use_adaptor u) (use_message u)) (coeff_of (ordered_pubkeys (use_ctx u)) pk))).

Lemma sign_scalar (o : bool) z : of_Z ord ((if o then -1 else 1) * z) = fneg_if o (of_Z ord z) :> mscalar Pr.
Proof. destruct o; cbn [fneg_if]; [|rewrite Z.mul_1_l; reflexivity]. rewrite <- of_Z_opp. replace (-1 * z) with (- z) by lia. reflexivity. Qed.
Lemma use_b_eq u : v_b (use_values u) = fz (u_b u).
Proof. unfold use_values. rewrite spec_values_eq. reflexivity. Qed.
Lemma use_sign_eq u : use_sign u = if u_odd u then -1 else 1.
Proof. unfold use_sign, use_values. rewrite spec_values_eq. cbn [v_R]. rewrite even_if. reflexivity. Qed.
Lemma use_weight_eq pk u : of_Z ord (use_weight pk u) = fneg_if (u_odd u) (u_w pk u) :> mscalar Pr.
Proof.
  unfold use_weight, use_values. rewrite spec_g_eq, spec_values_eq, spec_a_eq. cbn [v_e v_gacc].
  rewrite !of_Z_mul, !of_Z_fz, !of_Z_gacc. unfold u_w, sess_par.
  destruct (u_odd u), (pt_odd (pubkey (use_ctx u))), (parity_acc (use_ctx u)); cbn [xorb fneg_if]; ring.
Qed.
Lemma explains_iff pk u (k_1 k_2 x : Z) : explains pk u k_1 k_2 x <->
  fneg_if (u_odd u) (use_signature u) = fadd (fadd (of_Z ord k_1) (fmul (u_b u) (of_Z ord k_2))) (fmul (u_w pk u) (of_Z ord x)).
Proof.
  unfold explains. rewrite use_sign_eq, use_b_eq, mod_n.
  assert (E : of_Z ord ((if u_odd u then -1 else 1) * (k_1 + fz (u_b u) * k_2) + use_weight pk u * x)
            = fneg_if (u_odd u) (fadd (fadd (of_Z ord k_1) (fmul (u_b u) (of_Z ord k_2))) (fmul (u_w pk u) (of_Z ord x))) :> mscalar Pr).
  { rewrite of_Z_add, sign_scalar, of_Z_add, !of_Z_mul, of_Z_fz, use_weight_eq. destruct (u_odd u); cbn [fneg_if]; ring. }
  rewrite E. split.
  - intro H. apply fe_ext in H. rewrite H. destruct (u_odd u); cbn [fneg_if]; ring.
  - intro H. f_equal. rewrite <- H. destruct (u_odd u); cbn [fneg_if]; ring.
Qed.
Lemma on_line_iff pk p q u : on_line pk p q u <-> u_w pk u = fadd (of_Z ord p) (fmul (of_Z ord q) (u_b u)) :> mscalar Pr.
Proof.
  unfold on_line. rewrite use_sign_eq, use_b_eq, !mod_n, sign_scalar, use_weight_eq, of_Z_add, of_Z_mul, of_Z_fz.
  assert (E : fneg_if (u_odd u) (fneg_if (u_odd u) (u_w pk u)) = u_w pk u) by (destruct (u_odd u); cbn [fneg_if]; ring).
  rewrite E. split; [apply fe_ext | intros ->; reflexivity].
Qed.
Lemma own_explains u (sk : scalar Pr) (sn : sec_nonce Pr) : ctx_reachable (use_ctx u) ->
  sign_partial_adaptor (use_ctx u) sk sn (use_aggnonce u) (use_adaptor u) (use_message u) = Ok (use_signature u) ->
  explains (base_mul sk) u (fz (k1 sn)) (fz (k2 sn)) (fz sk).
Proof.
  intros Hc H. apply reachable_wf in Hc.
  assert (Hin : In (base_mul sk) (ordered_pubkeys (use_ctx u))).
  { destruct (in_pks_dec (base_mul sk) (ordered_pubkeys (use_ctx u))) as [Hi|Hi]; [assumption|].
    rewrite sign_nonmember in H by assumption. discriminate. }
  rewrite sign_member in H by assumption. injection H as H. apply explains_iff. rewrite <- H, !of_Z_fz.
  unfold psig_value, u_w. fold (u_b u) (u_odd u).
  destruct (u_odd u), (sess_par (use_ctx u)); cbn [fneg_if]; ring.
Qed.
(** Along a line of the uses any key explains the signatures. *)
Lemma shift_explains pk u (k_1 k_2 d p q x : mscalar Pr) :
  explains pk u (fz k_1) (fz k_2) (fz d) -> on_line pk (fz p) (fz q) u ->
  explains pk u (fz (fadd k_1 (fmul p (fsub d x)))) (fz (fadd k_2 (fmul q (fsub d x)))) (fz x).
Proof.
  rewrite !explains_iff, on_line_iff, !of_Z_fz. intros -> ->. ring.
Qed.
(** Two explanations by different keys put the use on a line. *)
Lemma two_explain pk u (k_1 k_2 d l_1 l_2 x i : mscalar Pr) : fmul (fsub d x) i = fone ->
  explains pk u (fz k_1) (fz k_2) (fz d) -> explains pk u (fz l_1) (fz l_2) (fz x) ->
  on_line pk (fz (fmul (fsub l_1 k_1) i)) (fz (fmul (fsub l_2 k_2) i)) u.
Proof.
  intro Hi. rewrite !explains_iff, on_line_iff, !of_Z_fz. intros -> H.
  transitivity (fmul (u_w pk u) (fmul (fsub d x) i)); [rewrite Hi; ring|].
  assert (E : fmul (u_w pk u) (fsub d x) = fadd (fsub l_1 k_1) (fmul (u_b u) (fsub l_2 k_2))).
  { transitivity (fsub (fsub (fadd (fadd k_1 (fmul (u_b u) k_2)) (fmul (u_w pk u) d)) (fmul (u_w pk u) x)) (fadd k_1 (fmul (u_b u) k_2))); [ring|].
    rewrite H. ring. }
  transitivity (fmul (fmul (u_w pk u) (fsub d x)) i); [ring|]. rewrite E. ring.
Qed.
Lemma line_scalars pk p q u : on_line pk p q u -> on_line pk (fz (of_Z ord p : mscalar Pr)) (fz (of_Z ord q : mscalar Pr)) u.
Proof. rewrite !on_line_iff, !of_Z_fz. auto. Qed.
Lemma sub_inv (a b : mscalar Pr) : a <> b -> exists i, fmul (fsub a b) i = fone.
Proof.
  intro H. apply (finv_exists ord_prime). intro E. apply H.
  transitivity (fadd b (fsub a b)); [ring|]. rewrite E. ring.
Qed.
(** Every key explains the uses, if they are on a line. *)
Lemma line_hides (uses : list (use Pr)) (sk : scalar Pr) (sn : sec_nonce Pr) :
  (forall u, In u uses -> explains (base_mul sk) u (fz (k1 sn)) (fz (k2 sn)) (fz sk)) ->
  (exists p q, forall u, In u uses -> on_line (base_mul sk) p q u) ->
  forall x : mscalar Pr, exists k_1 k_2 : mscalar Pr, forall u, In u uses -> explains (base_mul sk) u (fz k_1) (fz k_2) (fz x).
Proof.
  intros E (p & q & HL) x.
  exists (fadd (k1 sn) (fmul (of_Z ord p) (fsub sk x))), (fadd (k2 sn) (fmul (of_Z ord q) (fsub sk x))).
  intros u Hu. apply shift_explains; [apply E, Hu | apply line_scalars, HL, Hu].
Qed.
(** Two uses are on a line unless they have one nonce coefficient and different weights. *)
Lemma two_on_line pk (u v : use Pr) : v_b (use_values u) <> v_b (use_values v) ->
  exists p q, on_line pk p q u /\ on_line pk p q v.
Proof.
  rewrite !use_b_eq. intro H. assert (Hb : u_b u <> u_b v) by (intro E; apply H; now rewrite E).
  destruct (sub_inv _ _ Hb) as [i Hi]. set (q := fmul (fsub (u_w pk u) (u_w pk v)) i).
  exists (fz (fsub (u_w pk u) (fmul q (u_b u)))), (fz q). rewrite !on_line_iff, !of_Z_fz. split; [ring|].
  transitivity (fsub (u_w pk u) (fmul (fsub (u_w pk u) (u_w pk v)) (fmul (fsub (u_b u) (u_b v)) i))); [rewrite Hi; ring | unfold q; ring].
Qed.
End Reuse.

Section C82_exactly_when_revealed.
Context {Pr : prims}.
Add Ring ring_C82_exactly_when_revealed : (fe_ring_theory (n := @ord Pr)).
Lemma C82_exactly_when_revealed_proof {Laws : prims_ok Pr} {Tags : tags_ok Pr} (uses : list (use Pr)) (sk : scalar Pr) (sn : sec_nonce Pr) (Hu : forall u, In u uses -> ctx_reachable (use_ctx u) /\ sign_partial_adaptor (use_ctx u) sk sn (use_aggnonce u) (use_adaptor u) (use_message u) = Ok (use_signature u)) :
  let pk := base_mul sk in
  (forall u, In u uses -> explains pk u (fz (k1 sn)) (fz (k2 sn)) (fz sk)) /\
  ((exists p q, forall u, In u uses -> on_line pk p q u) ->
     forall x : mscalar Pr, exists k_1 k_2 : mscalar Pr, forall u, In u uses -> explains pk u (fz k_1) (fz k_2) (fz x)) /\
  (~ (exists p q, forall u, In u uses -> on_line pk p q u) ->
     forall k_1 k_2 x : mscalar Pr, (forall u, In u uses -> explains pk u (fz k_1) (fz k_2) (fz x)) -> fz x = fz sk).
Proof.
  cbv zeta.
  assert (E : forall u, In u uses -> explains (base_mul sk) u (fz (k1 sn)) (fz (k2 sn)) (fz sk)).
  { intros u H. destruct (Hu u H) as [Hc Hs]. apply own_explains; assumption. }
  split; [exact E|]. split; [exact (line_hides uses sk sn E)|]. intros HL l_1 l_2 x HX.
  destruct (Z.eq_dec (fz x) (fz sk)) as [Hx|Hx]; [exact Hx|]. exfalso. apply HL.
  assert (Hne : sval sk <> x) by (intro F; apply Hx; now rewrite <- F).
  destruct (sub_inv _ _ Hne) as [i Hi].
  exists (fz (fmul (fsub l_1 (k1 sn)) i)), (fz (fmul (fsub l_2 (k2 sn)) i)). intros u H.
  apply (two_explain (base_mul sk) u (k1 sn) (k2 sn) sk l_1 l_2 x i Hi); [apply E, H | apply HX, H].
Qed.
End C82_exactly_when_revealed.

Section C82_two_uses.
Context {Pr : prims}.
Add Ring ring_C82_two_uses : (fe_ring_theory (n := @ord Pr)).
Lemma C82_two_uses_proof {Laws : prims_ok Pr} {Tags : tags_ok Pr} (u : use Pr) (v : use Pr) (sk : scalar Pr) (sn : sec_nonce Pr) (Hu : forall w, In w [u; v] -> ctx_reachable (use_ctx w) /\ sign_partial_adaptor (use_ctx w) sk sn (use_aggnonce w) (use_adaptor w) (use_message w) = Ok (use_signature w)) :
  let pk := base_mul sk in
  let revealed := v_b (use_values u) = v_b (use_values v) /\
                  (use_sign u * use_weight pk u) mod n_ <> (use_sign v * use_weight pk v) mod n_ in
  (revealed -> forall k_1 k_2 x : mscalar Pr,
     explains pk u (fz k_1) (fz k_2) (fz x) -> explains pk v (fz k_1) (fz k_2) (fz x) -> fz x = fz sk) /\
  (~ revealed -> forall x : mscalar Pr, exists k_1 k_2 : mscalar Pr,
     explains pk u (fz k_1) (fz k_2) (fz x) /\ explains pk v (fz k_1) (fz k_2) (fz x)) /\
  (forall k_2 x : mscalar Pr, exists k_1 : mscalar Pr, explains pk u (fz k_1) (fz k_2) (fz x)).
Proof.
  cbv zeta.
  destruct (@C82_exactly_when_revealed_proof Pr Laws Tags [u; v] sk sn Hu) as (E & HY & HN).
  split; [|split].
  - intros [Hb Hw] l_1 l_2 x H1 H2. apply (HN) with (k_1 := l_1) (k_2 := l_2).
    + intros (p & q & HL). apply Hw. pose proof (HL u (or_introl eq_refl)) as L1.
      pose proof (HL v (or_intror (or_introl eq_refl))) as L2. unfold on_line in L1, L2. rewrite L1, L2, Hb. reflexivity.
    + intros w [<- | [<- | []]]; assumption.
  - intros HR x.
    assert (HL : exists p q, forall w, In w [u; v] -> on_line (base_mul sk) p q w).
    { destruct (Z.eq_dec (v_b (use_values u)) (v_b (use_values v))) as [Hb|Hb].
      - destruct (Z.eq_dec ((use_sign u * use_weight (base_mul sk) u) mod n_) ((use_sign v * use_weight (base_mul sk) v) mod n_)) as [Hw|Hw].
        + exists (use_sign u * use_weight (base_mul sk) u), 0. intros w [<- | [<- | []]]; unfold on_line; rewrite Z.mul_0_l, Z.add_0_r; [reflexivity | symmetry; exact Hw].
        + exfalso. apply HR. split; assumption.
      - destruct (two_on_line (base_mul sk) u v Hb) as (p & q & L1 & L2). exists p, q.
        intros w [<- | [<- | []]]; assumption. }
    destruct (HY HL x) as (l_1 & l_2 & HX). exists l_1, l_2. split; apply HX; cbn [In]; auto.
  - intros l_2 x.
    exists (fsub (fneg_if (u_odd u) (use_signature u)) (fadd (fmul (u_b u) l_2) (fmul (u_w (base_mul sk) u) x))).
    apply explains_iff. rewrite !of_Z_fz. ring.
Qed.
End C82_two_uses.

Section C82_documented_attack.
Context {Pr : prims}.
Add Ring ring_C82_documented_attack : (fe_ring_theory (n := @ord Pr)).
Lemma C82_documented_attack_proof {Laws : prims_ok Pr} {Tags : tags_ok Pr} (c : key_agg_ctx Pr) (sk : scalar Pr) (sn : sec_nonce Pr) (an : agg_nonce Pr) (an' : agg_nonce Pr) (msg : bytes) (s : mscalar Pr) (s' : mscalar Pr) (Hc : ctx_reachable c) (Hs : sign_partial c sk sn an msg = Ok s) (Hs' : sign_partial c sk sn an' msg = Ok s') (Hne : an <> an') :
  let pk := base_mul sk in
  let input := fun a => aggnonce_to_bytes a ++ xbytes (aggregated_pubkey c) ++ msg in
  let b := fun a => int_from_bytes (tagged_hash "MuSig/noncecoef" (input a)) mod n_ in
  input an <> input an' /\
  (b an <> b an' -> forall x : mscalar Pr, exists k_1 k_2 : mscalar Pr,
     explains pk (Use c an pt_O msg s) (fz k_1) (fz k_2) (fz x) /\
     explains pk (Use c an' pt_O msg s') (fz k_1) (fz k_2) (fz x)).
Proof.
  cbv zeta. split.
  - intro H. apply Hne. apply (f_equal (firstn 66)) in H.
    rewrite !firstn_app, !aggnonce_len in H. change (66 - 66)%nat with 0%nat in H. rewrite !firstn_O, !app_nil_r in H.
    rewrite !firstn_all2 in H by (rewrite aggnonce_len; apply Nat.le_refl).
    apply (f_equal (@aggnonce_from_bytes Pr)) in H. rewrite !(proj2 (aggnonce_decode _ _) eq_refl) in H. congruence.
  - intro Hb. unfold sign_partial in Hs, Hs'.
    assert (HU : forall w, In w [Use c an pt_O msg s; Use c an' pt_O msg s'] -> ctx_reachable (use_ctx w) /\
      sign_partial_adaptor (use_ctx w) sk sn (use_aggnonce w) (use_adaptor w) (use_message w) = Ok (use_signature w)).
    { intros w [<- | [<- | []]]; (split; [exact Hc | assumption]). }
    destruct (@C82_two_uses_proof Pr Laws Tags _ _ sk sn HU) as (_ & HH & _). apply HH.
    intros [F _]. apply Hb. exact F.
Qed.
End C82_documented_attack.

Lemma C82_documented_formula_refuted_proof :
  exists (c : key_agg_ctx Toy) (sk : scalar Toy) (sn : sec_nonce Toy) (an an' : agg_nonce Toy) (msg : bytes) (s s' : mscalar Toy),
    ctx_reachable c /\ tweak_acc c = fzero /\ an <> an' /\
    sign_partial c sk sn an msg = Ok s /\ sign_partial c sk sn an' msg = Ok s' /\
    let e := v_e (spec_values c an pt_O msg) in
    let e' := v_e (spec_values c an' pt_O msg) in
    let a := spec_a c (base_mul sk) in
    (exists k, fz s = (k + e * a * fz sk) mod n_ /\ fz s' = (k + e' * a * fz sk) mod n_) /\
    (fz sk * (a * (e + e'))) mod n_ <> (fz s - fz s') mod n_ /\
    (fz sk * a) mod n_ <> ((fz s - fz s') * (e + e')) mod n_ /\
    (fz sk * (a * (e - e'))) mod n_ = (fz s - fz s') mod n_.
Proof.
  exists reuse_c, (tsc 3), (mk_sn 7 11), (reuse_an 2 2), (reuse_an 8 5), toy_msg, (of_Z 31 14), (of_Z 31 7).
  split; [exact reuse_c_reach|]. split; [apply fe_ext; vm_compute; reflexivity|].
  split; [intro F; apply (f_equal (fun a => pt_eqb (aR1 a) (aR1 (reuse_an 8 5)))) in F; revert F; vm_compute; discriminate|].
  split; [apply sign_14|]. split; [apply sign_7|].
  cbv zeta. split; [exists 22; split; vm_compute; reflexivity|].
  split; [vm_compute; discriminate|]. split; vm_compute; [discriminate | reflexivity].
Qed.
