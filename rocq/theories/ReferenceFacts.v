(** On secp256k1 with SHA-256 the functions of SpecBIP327.v are those of SpecReference.v. *)
From Coq Require Import String List Lia ZArith.
From Verif Require Import Bytes BytesFacts Prims PrimsFacts Curve Cyclic Sha256 SpecTags SpecBIP327 SpecSecp Secp256k1 SecpFacts SpecReference.
Import ListNotations.
Local Open Scope list_scope.
Local Open Scope Z_scope.

(** Images of results. *)
Definition py_map {A B} (f : A -> B) (x : py A) : py B :=
  match x with Ret a => Ret (f a) | ValueError => ValueError | InvalidContribution s c => InvalidContribution s c | AssertFailed => AssertFailed end.
Lemma bind_map {A B C} (f : A -> B) (x : py A) (g : B -> py C) :
  py_bind (py_map f x) g = py_bind x (fun a => g (f a)).
Proof. destruct x; reflexivity. Qed.
Lemma map_bind {A B C} (f : B -> C) (x : py A) (g : A -> py B) :
  py_map f (py_bind x g) = py_bind x (fun a => py_map f (g a)).
Proof. destruct x; reflexivity. Qed.
Lemma blame_map {A B} (f : A -> B) i c (x : py A) : py_blame i c (py_map f x) = py_map f (py_blame i c x).
Proof. destruct x; reflexivity. Qed.
Lemma bind_ext {A B} (x : py A) (f g : A -> py B) : (forall a, x = Ret a -> f a = g a) -> py_bind x f = py_bind x g.
Proof. destruct x; cbn [py_bind]; auto. Qed.
Lemma check_map {A B} (f : A -> B) b (x : py A) : py_map f (py_check b x) = py_check b (py_map f x).
Proof. destruct b; reflexivity. Qed.
Lemma assert_map {A B} (f : A -> B) b (x : py A) : py_map f (py_assert b x) = py_assert b (py_map f x).
Proof. destruct b; reflexivity. Qed.
Lemma check_ext {A} b (x y : py A) : (b = true -> x = y) -> py_check b x = py_check b y.
Proof. destruct b; cbn [py_check]; auto. Qed.
Lemma assert_ext {A} b (x y : py A) : (b = true -> x = y) -> py_assert b x = py_assert b y.
Proof. destruct b; cbn [py_assert]; auto. Qed.
Lemma check_ret {A} b (x : py A) a : py_check b x = Ret a -> b = true /\ x = Ret a.
Proof. destruct b; cbn [py_check]; [auto | discriminate]. Qed.
Lemma blame_ret {A} i c (x : py A) a : py_blame i c x = Ret a -> x = Ret a.
Proof. destruct x; cbn [py_blame]; congruence. Qed.

Section Transport.
Local Opaque sha256_fips.
Variable r : bytes -> nat -> positive.
Local Notation PS := (Secp r).

Lemma enc_finite (P : spt) : P <> spt_O -> exists x y, enc P = Some (x, y) /\ 0 <= x < py_p /\ spt_x P = be_enc 32 x /\ spt_odd P = Z.odd y.
Proof.
  intro H. destruct P as [[|x y] HP]; [exfalso; apply H, spt_ext; reflexivity|].
  exists (fz x), (fz y). split; [reflexivity|]. split; [exact (fz_range x)|]. split; reflexivity.
Qed.
Lemma inf_enc (P : spt) : py_is_infinite (enc P) = @is_infinite PS P.
Proof. destruct P as [[|x y] HP]; reflexivity. Qed.
Lemma notinf (P : spt) : negb (@is_infinite PS P) = true -> P <> spt_O.
Proof. intros H ->. discriminate H. Qed.
Lemma mod2_even y : (y mod 2 =? 0) = Z.even y.
Proof. rewrite Zmod_even. destruct (Z.even y); reflexivity. Qed.
Lemma even_enc (P : spt) : P <> spt_O -> py_has_even_y (enc P) = Ret (@has_even_y PS P).
Proof.
  intro H. destruct (enc_finite P H) as (x & y & E & _ & _ & Eo). rewrite E. unfold py_has_even_y, has_even_y. cbn [py_y py_bind].
  change (@pt_odd PS P) with (spt_odd P). rewrite mod2_even, Eo, Z.negb_odd. reflexivity.
Qed.
Lemma to_bytes_ok z k : 0 <= z < 256 ^ Z.of_nat k -> py_to_bytes z k = Ret (be_enc k z).
Proof. intros [H1 H2]. unfold py_to_bytes. apply Z.leb_le in H1. apply Z.ltb_lt in H2. now rewrite H1, H2. Qed.
Lemma from_int_ok z : 0 <= z < py_n -> py_bytes_from_int z = Ret (bytes_from_int z).
Proof.
  intros H. unfold py_bytes_from_int, bytes_from_int. apply to_bytes_ok. pose proof py_n_small. change (256 ^ Z.of_nat 32) with (2 ^ 256). lia.
Qed.
Lemma xbytes_enc (P : spt) : P <> spt_O -> py_xbytes (enc P) = Ret (@xbytes PS P).
Proof.
  intro H. destruct (enc_finite P H) as (x & y & E & Hx & Ex & _). rewrite E. unfold py_xbytes, py_bytes_from_int. cbn [py_x py_bind].
  rewrite to_bytes_ok by (split; [apply Hx|]; apply Z.lt_trans with py_p; [apply Hx | reflexivity]). unfold xbytes. change (@pt_x PS P) with (spt_x P). now rewrite Ex.
Qed.
Lemma cbytes_enc (P : spt) : P <> spt_O -> py_cbytes (enc P) = Ret (@cbytes PS P).
Proof. intro H. unfold py_cbytes. rewrite (even_enc P H), (xbytes_enc P H). reflexivity. Qed.
Lemma cbytes_ext_enc (P : spt) : py_cbytes_ext (enc P) = Ret (@cbytes_ext PS P).
Proof.
  unfold py_cbytes_ext, cbytes_ext. rewrite inf_enc. destruct (@is_infinite PS P) eqn:E; [reflexivity|].
  apply cbytes_enc, notinf. now rewrite E.
Qed.
Lemma negate_enc (P : spt) : py_point_negate (enc P) = enc (spt_neg P).
Proof.
  destruct P as [[|x y] HP]; [reflexivity|]. unfold enc, spt_neg. cbn [sp popp encr py_point_negate]. do 2 f_equal.
  rewrite fz_neg; [reflexivity|]. apply y_nz with x. now apply on_iff.
Qed.
Lemma lift_fin b P : spt_lift b = Some P -> exists q, enc P = Some q.
Proof.
  intro E. apply secp_lift_spec in E as (HO & _). destruct P as [[|x y] H]; [exfalso; apply HO, spt_ext; reflexivity | eexists; reflexivity].
Qed.
Lemma cpoint_enc x : py_cpoint x = py_map enc (@cpoint PS x).
Proof.
  unfold py_cpoint, cpoint. destruct (length x =? 33)%nat eqn:EL; cbn [negb]; [|reflexivity]. apply Nat.eqb_eq in EL.
  unfold py_slice. change (33 - 1)%nat with 32%nat.
  rewrite enc_lift by (rewrite firstn_length, skipn_length, EL; reflexivity).
  change (@pt_lift PS) with spt_lift. destruct (spt_lift (firstn 32 (skipn 1 x))) as [P|] eqn:E; [|reflexivity].
  destruct (lift_fin _ _ E) as [q Hq]. rewrite Hq. rewrite <- Hq. change (@pt_neg PS P) with (spt_neg P). rewrite negate_enc.
  destruct (hd x00 x); reflexivity.
Qed.
Lemma cpoint_fin x P : @cpoint PS x = Ret P -> P <> spt_O.
Proof.
  unfold cpoint. destruct (negb _); [discriminate|]. change (@pt_lift PS) with spt_lift.
  destruct (spt_lift _) as [Q|] eqn:E; [|discriminate]. apply secp_lift_spec in E as (HO & _).
  destruct (hd x00 x); intro H; try discriminate H; injection H as <-; [exact HO|].
  change (@pt_neg PS Q) with (spt_neg Q). intro H. apply HO. apply (f_equal (spt_add Q)) in H.
  rewrite spt_add_neg, spt_comm, spt_add_O in H. now symmetry.
Qed.
Lemma cpoint_ext_enc x : py_cpoint_ext x = py_map enc (@cpoint_ext PS x).
Proof.
  unfold py_cpoint_ext, cpoint_ext. change (be_enc 33 0) with (repeat x00 33).
  destruct (bytes_eqb x (repeat x00 33)); [reflexivity | apply cpoint_enc].
Qed.
Lemma mul_enc (P : spt) k : 0 <= k < py_n -> py_point_mul (enc P) k = enc (@point_mul PS P k).
Proof. intro H. pose proof py_n_small. rewrite enc_mul by lia. unfold point_mul. now rewrite secp_smul. Qed.
Lemma mulG_enc k : 0 <= k < py_n -> py_point_mul py_G k = enc (@point_mul PS spt_G k).
Proof. rewrite <- enc_G. apply mul_enc. Qed.
Lemma modn z : 0 <= z mod py_n < py_n.
Proof. apply Z.mod_pos_bound. reflexivity. Qed.
Lemma one_n : 0 <= 1 < py_n. Proof. split; [lia | reflexivity]. Qed.
Lemma n1_n : 0 <= py_n - 1 < py_n. Proof. split; [discriminate | reflexivity]. Qed.
Lemma dec_pos b : 0 <= int_from_bytes b. Proof. apply be_dec_range. Qed.

Lemma individual_pk_enc sk : py_individual_pk sk = @individual_pk PS sk.
Proof.
  unfold py_individual_pk, individual_pk. change (@n_ PS) with py_n. cbv zeta. apply check_ext. intro H.
  apply andb_true_iff in H as [H1 H2]. apply Z.leb_le in H1, H2.
  rewrite mulG_enc by lia. rewrite inf_enc. apply assert_ext. intro HF. apply cbytes_enc. now apply notinf.
Qed.

Lemma coeff_internal_enc pks pk pk2 : py_coeff_internal pks pk pk2 = @key_agg_coeff_internal PS pks pk pk2.
Proof. unfold py_coeff_internal, key_agg_coeff_internal, py_hash_keys, hash_keys. rewrite !secp_tagged. reflexivity. Qed.
Lemma coeff_range pks pk pk2 : 0 <= py_coeff_internal pks pk pk2 < py_n.
Proof. unfold py_coeff_internal. cbv zeta. destruct (bytes_eqb pk pk2); [apply one_n | apply modn]. Qed.
Lemma key_agg_loop_enc pks pk2 l : forall i Q,
  py_key_agg_loop pks pk2 i l (enc Q) = py_map enc (@key_agg_loop PS pks pk2 i l Q).
Proof.
  induction l as [|pk l IH]; intros i Q; cbn [py_key_agg_loop key_agg_loop]; [reflexivity|].
  rewrite cpoint_enc, blame_map, bind_map, map_bind. apply bind_ext. intros P _. cbv zeta.
  rewrite mul_enc by apply coeff_range. rewrite <- enc_add, coeff_internal_enc. apply IH.
Qed.
(** The Python object for a context of the group-level reference. *)
Definition enc_ctx (k : @keyagg PS) : py_keyagg := PyKeyAgg (enc (Q_ k)) (gacc k) (tacc k).
Lemma key_agg_enc pks : py_key_agg pks = py_map enc_ctx (@key_agg PS pks).
Proof.
  unfold py_key_agg, key_agg. change None with (enc spt_O). rewrite key_agg_loop_enc, bind_map, map_bind.
  apply bind_ext. intros Q _. rewrite inf_enc, assert_map. reflexivity.
Qed.
Lemma key_agg_fin pks k : @key_agg PS pks = Ret k -> Q_ k <> spt_O.
Proof.
  unfold key_agg. destruct (key_agg_loop _ _ _ _ _) as [Q| | |]; cbn [py_bind]; try discriminate.
  destruct (negb (is_infinite Q)) eqn:E; cbn [py_assert]; [|discriminate]. intros [= <-]. now apply notinf.
Qed.
Lemma apply_tweak_fin k t x k' : @apply_tweak PS k t x = Ret k' -> Q_ k' <> spt_O.
Proof.
  unfold apply_tweak. cbv zeta. intro H. apply check_ret in H as [_ H]. apply check_ret in H as [_ H]. apply check_ret in H as [HF H].
  apply notinf in HF. injection H as <-. exact HF.
Qed.
Lemma apply_tweak_enc (k : @keyagg PS) t x : Q_ k <> spt_O ->
  py_apply_tweak (enc_ctx k) t x = py_map enc_ctx (@apply_tweak PS k t x).
Proof.
  intro HF. unfold py_apply_tweak, apply_tweak. rewrite check_map. apply check_ext. intros _. cbv zeta.
  change (py_Q (enc_ctx k)) with (enc (Q_ k)). rewrite (even_enc _ HF). cbn [py_bind].
  set (g := if x && negb (@has_even_y PS (Q_ k)) then @n_ PS - 1 else 1).
  assert (Eg : (if x then Ret (if negb (@has_even_y PS (Q_ k)) then py_n - 1 else 1) else Ret 1) = Ret g) by (unfold g; destruct x; reflexivity).
  rewrite Eg. cbn [py_bind]. assert (Hg : 0 <= g < py_n) by (unfold g; destruct (x && _); [apply n1_n | apply one_n]). clearbody g.
  change (@n_ PS) with py_n. rewrite check_map. apply check_ext. intro Ht. apply negb_true_iff, Z.leb_gt in Ht.
  rewrite mul_enc, mulG_enc by (first [exact Hg | split; [apply dec_pos | exact Ht]]). rewrite <- enc_add, inf_enc, check_map. reflexivity.
Qed.
Lemma apply_tweaks_enc l : forall k : @keyagg PS, Q_ k <> spt_O ->
  py_apply_tweaks (enc_ctx k) l = py_map enc_ctx (@apply_tweaks PS k l).
Proof.
  induction l as [|[t x] l IH]; intros k HF; cbn [py_apply_tweaks apply_tweaks]; [reflexivity|].
  rewrite apply_tweak_enc, bind_map, map_bind by exact HF. apply bind_ext. intros k' E. apply IH. exact (apply_tweak_fin _ _ _ _ E).
Qed.
Lemma apply_tweaks_fin l : forall k k' : @keyagg PS, Q_ k <> spt_O -> @apply_tweaks PS k l = Ret k' -> Q_ k' <> spt_O.
Proof.
  induction l as [|[t x] l IH]; intros k k' HF; cbn [apply_tweaks]; [now intros [= <-]|].
  destruct (apply_tweak k t x) as [k1| | |] eqn:E; cbn [py_bind]; try discriminate. apply IH. exact (apply_tweak_fin _ _ _ _ E).
Qed.
Lemma key_agg_and_tweak_enc pks tw xo : py_key_agg_and_tweak pks tw xo = py_map enc_ctx (@key_agg_and_tweak PS pks tw xo).
Proof.
  unfold py_key_agg_and_tweak, key_agg_and_tweak. rewrite check_map. apply check_ext. intros _.
  rewrite key_agg_enc, bind_map, map_bind. apply bind_ext. intros k E. apply apply_tweaks_enc. exact (key_agg_fin _ _ E).
Qed.
Lemma key_agg_and_tweak_fin pks tw xo k : @key_agg_and_tweak PS pks tw xo = Ret k -> Q_ k <> spt_O.
Proof.
  unfold key_agg_and_tweak. destruct (length tw =? length xo)%nat; cbn [py_check]; [|discriminate].
  destruct (key_agg pks) as [k0| | |] eqn:E; cbn [py_bind]; try discriminate. apply apply_tweaks_fin. exact (key_agg_fin _ _ E).
Qed.

Lemma zlen_pos {A} (l : list A) : 0 <= zlen l. Proof. unfold zlen. apply Nat2Z.is_nonneg. Qed.
Lemma nonce_hash_enc rand pk aggpk i mp ex : zlen pk < 256 -> zlen aggpk < 256 -> zlen ex < 2 ^ 32 -> 0 <= i < 256 ->
  py_nonce_hash rand pk aggpk i mp ex = Ret (@nonce_hash PS rand pk aggpk i mp ex).
Proof.
  intros H1 H2 H3 H4. unfold py_nonce_hash.
  rewrite (to_bytes_ok (zlen pk) 1) by (split; [apply zlen_pos | exact H1]). rewrite (to_bytes_ok (zlen aggpk) 1) by (split; [apply zlen_pos | exact H2]).
  rewrite (to_bytes_ok (zlen ex) 4) by (split; [apply zlen_pos | exact H3]). rewrite (to_bytes_ok i 1) by exact H4.
  cbn [py_bind]. unfold nonce_hash. rewrite secp_tagged. reflexivity.
Qed.
Lemma nonce_gen_enc rand sk pk aggpk msg ex :
  zlen pk < 256 -> (forall a, aggpk = Some a -> zlen a < 256) ->
  (forall m, msg = Some m -> zlen m < 2 ^ 64) -> (forall e, ex = Some e -> zlen e < 2 ^ 32) ->
  py_nonce_gen_internal rand sk pk aggpk msg ex = @nonce_gen_internal PS rand sk pk aggpk msg ex.
Proof.
  intros H1 H2 H3 H4. unfold py_nonce_gen_internal, nonce_gen_internal. cbv zeta.
  match goal with |- py_bind ?x _ = ?y => match y with context [nonce_hash _ _ _ _ ?mp _] => set (mp0 := mp); assert (Em : x = Ret mp0) end end.
  { unfold mp0. destruct msg as [m|]; [|reflexivity]. rewrite to_bytes_ok by (split; [apply zlen_pos | now apply H3]). reflexivity. }
  rewrite Em. clear Em. clearbody mp0. cbn [py_bind].
  assert (Ha : zlen match aggpk with None => [] | Some a => a end < 256) by (destruct aggpk; [now apply H2 | reflexivity]).
  assert (He : zlen match ex with None => [] | Some e => e end < 2 ^ 32) by (destruct ex; [now apply H4 | reflexivity]).
  rewrite !nonce_hash_enc by (try assumption; lia). cbn [py_bind].
  change (match sk with Some sk0 => bytes_xor sk0 (py_tagged_hash "MuSig/aux" rand) | None => rand end)
    with (match sk with Some sk0 => bytes_xor sk0 (@tagged_hash PS "MuSig/aux" rand) | None => rand end).
  change (@n_ PS) with py_n.
  set (h1 := nonce_hash _ _ _ 0 _ _). set (h2 := nonce_hash _ _ _ 1 _ _).
  apply assert_ext. intros _. apply assert_ext. intros _.
  change (@pt_G PS) with spt_G. rewrite !mulG_enc by apply modn. rewrite !inf_enc. apply assert_ext. intro F1. apply assert_ext. intro F2. apply notinf in F1, F2.
  rewrite (cbytes_enc _ F1), (cbytes_enc _ F2), !from_int_ok by apply modn. reflexivity.
Qed.

Lemma nonce_agg_loop_enc j l : (j = 0 \/ j = 1)%nat -> forall i R,
  py_nonce_agg_loop j i l (enc R) = py_map enc (@nonce_agg_loop PS j i l R).
Proof.
  intro Hj. induction l as [|pn l IH]; intros i R; cbn [py_nonce_agg_loop nonce_agg_loop]; [reflexivity|].
  unfold py_slice. replace ((j + 1) * 33 - j * 33)%nat with 33%nat by lia.
  rewrite cpoint_enc, blame_map, bind_map, map_bind. apply bind_ext. intros P _. rewrite <- enc_add. apply IH.
Qed.
Lemma nonce_agg_enc l : py_nonce_agg l = @nonce_agg PS l.
Proof.
  unfold py_nonce_agg, nonce_agg. change None with (enc spt_O).
  rewrite nonce_agg_loop_enc, bind_map by (now left). apply bind_ext. intros R1 _. rewrite cbytes_ext_enc. cbn [py_bind].
  rewrite nonce_agg_loop_enc, bind_map by (now right). apply bind_ext. intros R2 _. rewrite cbytes_ext_enc. reflexivity.
Qed.

(** The Python tuple for its session values. *)
Definition enc_values (v : @values PS) : py_values :=
  PyValues (enc (v_Q v)) (v_gacc v) (v_tacc v) (v_b v) (enc (v_R v)) (v_e v).
Lemma G_not_O : spt_G <> spt_O. Proof. intro H. apply (f_equal sp) in H. discriminate H. Qed.
Lemma session_values_enc sc : py_get_session_values sc = py_map enc_values (@get_session_values PS sc).
Proof.
  unfold py_get_session_values, get_session_values. rewrite key_agg_and_tweak_enc, bind_map, map_bind.
  apply bind_ext. intros k E. apply key_agg_and_tweak_fin in E. cbv zeta. change (py_Q (enc_ctx k)) with (enc (Q_ k)).
  rewrite (xbytes_enc _ E). cbn [py_bind].
  rewrite !cpoint_ext_enc, !blame_map, bind_map, map_bind. apply bind_ext. intros R1 _.
  rewrite bind_map, map_bind. apply bind_ext. intros R2 _.
  rewrite mul_enc by apply modn. rewrite <- enc_add, inf_enc, <- enc_G.
  change (@n_ PS) with py_n. change (@tagged_hash PS) with py_tagged_hash.
  set (b := int_from_bytes (py_tagged_hash "MuSig/noncecoef" _) mod py_n). clearbody b.
  change (@pt_add PS) with spt_add. change (@pt_G PS) with spt_G.
  set (R' := spt_add R1 _). clearbody R'.
  match goal with |- _ = ?y => match y with context [Values _ _ _ _ ?R0 _] => set (R := R0) end end.
  assert (ER : (if negb (@is_infinite PS R') then enc R' else enc spt_G) = enc R) by (unfold R; destruct (negb _); reflexivity).
  assert (HR : R <> spt_O) by (unfold R; destruct (negb _) eqn:EN; [now apply notinf | apply G_not_O]).
  rewrite ER. clearbody R. rewrite (xbytes_enc _ HR). reflexivity.
Qed.
Lemma session_values_fin sc v : @get_session_values PS sc = Ret v ->
  v_Q v <> spt_O /\ v_R v <> spt_O /\ 0 <= v_b v < py_n.
Proof.
  unfold get_session_values. destruct (key_agg_and_tweak _ _ _) as [k| | |] eqn:E; cbn [py_bind]; try discriminate.
  apply key_agg_and_tweak_fin in E. cbv zeta.
  destruct (py_blame _ _ (cpoint_ext (firstn 33 (s_aggnonce sc)))) as [R1| | |]; cbn [py_bind]; try discriminate.
  destruct (py_blame _ _ (cpoint_ext _)) as [R2| | |]; cbn [py_bind]; try discriminate.
  intros [= <-]. cbn [v_Q v_R v_b]. split; [exact E|]. split; [|apply modn].
  destruct (negb _) eqn:EN; [apply notinf; exact EN | exact G_not_O].
Qed.
Lemma session_coeff_enc sc P : P <> spt_O -> py_get_session_key_agg_coeff sc (enc P) = @get_session_key_agg_coeff PS sc P.
Proof. intro H. unfold py_get_session_key_agg_coeff, get_session_key_agg_coeff. rewrite (cbytes_enc _ H). reflexivity. Qed.
Lemma eq_enc (P Q : spt) : py_point_eq (enc P) (enc Q) = spt_eqb P Q.
Proof.
  destruct P as [[|x y] HP], Q as [[|x' y'] HQ]; reflexivity.
Qed.
Lemma verify_internal_enc psig pn pk sc :
  py_partial_sig_verify_internal psig pn pk sc = @partial_sig_verify_internal PS psig pn pk sc.
Proof.
  unfold py_partial_sig_verify_internal, partial_sig_verify_internal. rewrite session_values_enc, bind_map.
  apply bind_ext. intros v E. apply session_values_fin in E as (HQ & HR & Hb). cbv zeta. change (@n_ PS) with py_n.
  destruct (py_n <=? int_from_bytes psig) eqn:Es; [reflexivity|]. apply Z.leb_gt in Es.
  unfold py_slice. change (33 - 0)%nat with 33%nat. change (66 - 33)%nat with 33%nat. change (skipn 0 pn) with pn.
  rewrite !cpoint_enc, bind_map. apply bind_ext. intros R1 _. rewrite bind_map. apply bind_ext. intros R2 _.
  change (pv_R (enc_values v)) with (enc (v_R v)). change (pv_Q (enc_values v)) with (enc (v_Q v)).
  change (pv_b (enc_values v)) with (v_b v). change (pv_e (enc_values v)) with (v_e v). change (pv_gacc (enc_values v)) with (v_gacc v).
  rewrite mul_enc by exact Hb. rewrite <- enc_add, negate_enc, (even_enc _ HR). cbn [py_bind].
  rewrite bind_map. apply bind_ext. intros P EP. apply cpoint_fin in EP. rewrite inf_enc.
  assert (Ei : @is_infinite PS P = false).
  { destruct (@is_infinite PS P) eqn:Ei; [|reflexivity]. exfalso. apply EP. apply spt_eqb_eq. exact Ei. }
  rewrite Ei, (session_coeff_enc _ _ EP). apply bind_ext. intros a _. rewrite (even_enc _ HQ). cbn [py_bind]. f_equal.
  rewrite mulG_enc by (split; [apply dec_pos | exact Es]). rewrite mul_enc by apply modn.
  change (@pt_eqb PS) with spt_eqb. rewrite <- eq_enc. f_equal. change (@pt_add PS) with spt_add. change (@pt_neg PS) with spt_neg.
  destruct (@has_even_y PS (v_R v)); rewrite !enc_add; reflexivity.
Qed.
Lemma sign_enc sn sk sc : py_sign sn sk sc = @sign PS sn sk sc.
Proof.
  unfold py_sign, sign. rewrite session_values_enc, bind_map. apply bind_ext. intros v E.
  apply session_values_fin in E as (HQ & HR & Hb). cbv zeta. change (@n_ PS) with py_n.
  unfold py_slice. change (32 - 0)%nat with 32%nat. change (64 - 32)%nat with 32%nat. change (97 - 64)%nat with 33%nat. change (skipn 0 sn) with sn.
  set (k1 := int_from_bytes (firstn 32 sn)). set (k2 := int_from_bytes (firstn 32 (skipn 32 sn))).
  apply check_ext. intro H1. apply check_ext. intro H2.
  change (pv_R (enc_values v)) with (enc (v_R v)). change (pv_Q (enc_values v)) with (enc (v_Q v)).
  change (pv_b (enc_values v)) with (v_b v). change (pv_e (enc_values v)) with (v_e v). change (pv_gacc (enc_values v)) with (v_gacc v).
  rewrite (even_enc _ HR). cbn [py_bind]. apply check_ext. intro H3.
  apply andb_true_iff in H1 as [A1 B1], H2 as [A2 B2], H3 as [A3 B3]. apply Z.ltb_lt in A1, B1, A2, B2, A3, B3.
  change (@pt_G PS) with spt_G. rewrite !mulG_enc by lia. rewrite inf_enc. apply assert_ext. intro HP. apply notinf in HP.
  rewrite (cbytes_enc _ HP). cbn [py_bind]. apply check_ext. intros _.
  rewrite (session_coeff_enc _ _ HP). apply bind_ext. intros a _. rewrite (even_enc _ HQ). cbn [py_bind].
  rewrite from_int_ok by apply modn. cbn [py_bind]. rewrite !inf_enc. apply assert_ext. intro F1. apply assert_ext. intro F2. apply notinf in F1, F2.
  rewrite (cbytes_enc _ F1), (cbytes_enc _ F2). cbn [py_bind]. rewrite verify_internal_enc. reflexivity.
Qed.
Lemma verify_enc psig pns pks tw xo msg i :
  py_partial_sig_verify psig pns pks tw xo msg i = @partial_sig_verify PS psig pns pks tw xo msg i.
Proof.
  unfold py_partial_sig_verify, partial_sig_verify. apply check_ext. intros _. apply check_ext. intros _.
  rewrite nonce_agg_enc. apply bind_ext. intros an _. cbv zeta.
  destruct (nth_error pns i); [|reflexivity]. destruct (nth_error pks i); [|reflexivity]. apply verify_internal_enc.
Qed.
Lemma psig_sum_enc l : forall i s, py_psig_sum i l s = @psig_sum PS i l s.
Proof.
  induction l as [|p l IH]; intros i s; cbn [py_psig_sum psig_sum]; [reflexivity|]. cbv zeta. change (@n_ PS) with py_n.
  destruct (py_n <=? int_from_bytes p); [reflexivity | apply IH].
Qed.
Lemma agg_enc psigs sc : py_partial_sig_agg psigs sc = @partial_sig_agg PS psigs sc.
Proof.
  unfold py_partial_sig_agg, partial_sig_agg. rewrite session_values_enc, bind_map. apply bind_ext. intros v E.
  apply session_values_fin in E as (HQ & HR & Hb). rewrite psig_sum_enc. apply bind_ext. intros s _. cbv zeta.
  change (pv_R (enc_values v)) with (enc (v_R v)). change (pv_Q (enc_values v)) with (enc (v_Q v)).
  change (pv_e (enc_values v)) with (v_e v). change (pv_tacc (enc_values v)) with (v_tacc v).
  rewrite (even_enc _ HQ), (xbytes_enc _ HR). cbn [py_bind]. rewrite from_int_ok by apply modn. reflexivity.
Qed.
End Transport.
