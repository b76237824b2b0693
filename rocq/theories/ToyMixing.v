(** Five open sessions on the toy curve, whose order has five bits, and a forgery. *)
From Coq Require Import List.
From Verif Require Import Bytes Prims PrimsFacts Errors KeyAgg KeyAggFacts Nonces Signature Signing Bip340 Rounds SpecBIP327 SpecSession SpecCtx SpecRounds SpecReuse SpecAlgebra SpecMixing Toy ToyData ToyReuse.
Import ListNotations.
Local Open Scope Z_scope.

(** The signer of 3*G in the group with 13*G, by the seed of the session. *)
Definition mix_new (b : byte) : res signer_index_error (first_round Toy) := first_round_new reuse_c (repeat b 32) 0 (spices_new (Pr := Toy)).
(** The five round objects. *)
Definition mix_rounds : list (first_round Toy) :=
  [ ok_val (mix_new x01) ltac:(vm_compute; reflexivity); ok_val (mix_new x02) ltac:(vm_compute; reflexivity);
    ok_val (mix_new x03) ltac:(vm_compute; reflexivity); ok_val (mix_new x04) ltac:(vm_compute; reflexivity);
    ok_val (mix_new x05) ltac:(vm_compute; reflexivity) ].
Lemma new_ctx {Pr : prims} (c : key_agg_ctx Pr) seed i sp r : first_round_new c seed i sp = Ok r -> fr_ctx r = c.
Proof.
  unfold first_round_new. destruct (get_pubkey c i); [|discriminate]. destruct (round_builder c seed i _ sp); try discriminate.
  destruct (place _ _ _ _) as [sl [u|e|]]; try discriminate. intro H. injection H as <-. reflexivity.
Qed.
Lemma mix_new_started b r : mix_new b = Ok r -> fr_started r /\ fr_ctx r = reuse_c.
Proof.
  intro H. split; [|exact (new_ctx _ _ _ _ _ H)].
  exists reuse_c, (repeat b 32), 0%nat, (spices_new (Pr := Toy)). split; [exact reuse_c_reach | exact H].
Qed.
Lemma mix_started r : In r mix_rounds -> fr_started r /\ fr_ctx r = reuse_c.
Proof.
  intros [<- | [<- | [<- | [<- | [<- | []]]]]];
    [apply (mix_new_started x01) | apply (mix_new_started x02) | apply (mix_new_started x03) | apply (mix_new_started x04) | apply (mix_new_started x05)]; apply ok_val_eq.
Qed.
(** The other side's nonce, and what it sends. *)
Definition mix_pn : pub_nonce Toy := public_nonce (mk_sn 6 2).
(** The calls of each round object. *)
Definition mix_calls : list (nat * pub_nonce Toy) := [(1%nat, mix_pn)].
(** What the other side may ask for: no adaptor point, or 9*G. *)
Definition mix_offer (r : first_round Toy) : offer Toy :=
  Offer reuse_c (our_public_nonce r) (agg_sum [our_public_nonce r; mix_pn]) toy_msg (fun i => if i then gmul (of_Z 31 9 : mscalar Toy) else pt_O).
(** The five sessions as the other side sees them. *)
Definition mix_offers : list (offer Toy) := map mix_offer mix_rounds.
(** The signer's key. *)
Definition mix_P : point Toy := base_mul (tsc 3).
(** The key of the group, 5 * (3*G) + 13*G, and a message that nobody signed. *)
Definition mix_Q : point Toy := aggregated_pubkey reuse_c.
(** The message. *)
Definition mix_msg : bytes := repeat x2a 3.
(** What the signer answers. *)
Definition mix_answers : list (mscalar Toy) := map (of_Z 31) [27; 28; 3; 5; 27].

Lemma mix_Q_eq : pval mix_Q = pt_add (point_mul mix_P 5) (point_mul pt_G 13).
Proof. apply fe_ext. vm_compute. reflexivity. Qed.
Lemma mix_differ o : In o mix_offers -> offer_w mix_P o true mod 31 <> offer_w mix_P o false mod 31.
Proof.
  intros H E.
  assert (F : forallb (fun o => negb (offer_w mix_P o true mod 31 =? offer_w mix_P o false mod 31)) mix_offers = true) by (vm_compute; reflexivity).
  rewrite forallb_forall in F. specialize (F o H). cbv beta in F. rewrite E, Z.eqb_refl in F. discriminate.
Qed.
Lemma mix_R_eq : mixed_R mix_P mix_offers = pval (tpt 29).
Proof. apply fe_ext. vm_compute. reflexivity. Qed.
Lemma mix_R_finite : mixed_R mix_P mix_offers <> pt_O.
Proof. rewrite mix_R_eq. intro H. apply (f_equal (fun X : mscalar Toy => fz X)) in H. vm_compute in H. discriminate H. Qed.
(** The number whose bits are the points to ask for. *)
Lemma mix_wanted : wanted mix_P mix_offers mix_Q 5 mix_msg = 30.
Proof. unfold wanted, mixed_e. rewrite mix_R_eq. vm_compute. reflexivity. Qed.
Lemma mix_chosen j : chosen mix_P mix_offers mix_Q 5 mix_msg j = Z.testbit 30 (Z.of_nat j).
Proof. unfold chosen. rewrite mix_wanted. reflexivity. Qed.
(** The forgery. *)
Lemma mix_sig : mixed_sig mix_P mix_offers mix_Q 5 13 mix_msg mix_answers = be_enc 32 7 ++ be_enc 32 11.
Proof. unfold mixed_sig, chosen, mixed_e. rewrite mix_wanted, mix_R_eq. vm_compute. reflexivity. Qed.

(** The round object, finalized for the point number [i], has the aggregated nonce of the offer and gives the answer [s]. *)
Definition mix_check (r : first_round Toy) (i : bool) (s : mscalar Toy) : bool :=
  ok_and (fr_finalize_adaptor (fst (fr_run r mix_calls)) (tsc 3) (o_point (mix_offer r) i) toy_msg) (fun sr =>
    (fz (aR1 (sr_aggnonce sr) : mscalar Toy) =? fz (aR1 (o_aggnonce (mix_offer r)) : mscalar Toy)) &&
    (fz (aR2 (sr_aggnonce sr) : mscalar Toy) =? fz (aR2 (o_aggnonce (mix_offer r)) : mscalar Toy)) &&
    ok_and (our_signature sr) (fun s' => fz s' =? fz s)).
Lemma mix_check_ok r i s : mix_check r i s = true ->
  exists sr, fr_finalize_adaptor (fst (fr_run r mix_calls)) (tsc 3) (o_point (mix_offer r) i) toy_msg = Ok sr /\
    sr_aggnonce sr = o_aggnonce (mix_offer r) /\ our_signature sr = Ok s.
Proof.
  unfold mix_check. destruct (fr_finalize_adaptor _ _ _ _) as [sr| |]; cbn [ok_and]; try discriminate. intro H. exists sr. split; [reflexivity|].
  apply andb_prop in H as [H H3]. apply andb_prop in H as [H1 H2]. apply Z.eqb_eq in H1, H2. apply fe_ext in H1, H2. split.
  - destruct (sr_aggnonce sr) as [u v], (o_aggnonce (mix_offer r)) as [u' v']. cbn [aR1 aR2] in H1, H2. congruence.
  - destruct (our_signature sr) as [s'| |]; cbn [ok_and] in H3; try discriminate. f_equal. apply fe_ext, Z.eqb_eq, H3.
Qed.
Lemma mix_answered j o r calls s :
  nth_error mix_offers j = Some o -> nth_error (map (fun r => (r, mix_calls)) mix_rounds) j = Some (r, calls) -> nth_error mix_answers j = Some s ->
  fr_started r /\ fr_ctx r = o_ctx o /\ our_public_nonce r = o_nonce o /\
  exists sr, fr_finalize_adaptor (fst (fr_run r calls)) (tsc 3) (o_point o (chosen mix_P mix_offers mix_Q 5 mix_msg j)) (o_message o) = Ok sr /\
    sr_aggnonce sr = o_aggnonce o /\ our_signature sr = Ok s.
Proof.
  intros Ho Hr Hs. unfold mix_offers in Ho. rewrite nth_error_map in Ho, Hr.
  destruct (nth_error mix_rounds j) as [r'|] eqn:E; [|discriminate]. cbn [option_map] in Ho, Hr.
  assert (r' = r) by congruence. assert (mix_calls = calls) by congruence. assert (mix_offer r' = o) by congruence. subst calls o r'. clear Ho Hr.
  destruct (mix_started r (nth_error_In _ _ E)) as [S C]. split; [exact S|]. split; [exact C|]. split; [reflexivity|].
  apply mix_check_ok. rewrite mix_chosen.
  assert (F : forallb (fun j => match nth_error mix_rounds j, nth_error mix_answers j with
    | Some r, Some s => mix_check r (Z.testbit 30 (Z.of_nat j)) s | _, _ => true end) (seq 0 5) = true) by (vm_compute; reflexivity).
  rewrite forallb_forall in F.
  assert (J : (j < 5)%nat) by (change 5%nat with (length mix_rounds); apply nth_error_Some; congruence).
  specialize (F j). cbv beta in F. rewrite E, Hs in F. apply F. apply in_seq. split; [apply Nat.le_0_l | exact J].
Qed.
