(** The model agrees with the transcription of reference.py: keys and tweaks. *)
From Coq Require Import String.
From Verif Require Import Bytes BytesFacts Prims PrimsFacts CodecFacts TaggedHashes Errors SpecTags SpecBIP327 Nonces SpecView
  KeyAgg SpecCtx KeyAggFacts KeyAggCodec.
Open Scope Z_scope.

Section SpecFacts.
Context {Pr : prims} {Ok_ : prims_ok Pr} {Tags : tags_ok Pr}.
Add Ring fring : (fe_ring_theory (n := @ord Pr)).

(** *** Points *)

Lemma is_infinite_O P : is_infinite P = true <-> P = pt_O.
Proof. apply pt_eqb_eq. Qed.
Lemma is_infinite_fin P : is_infinite P = false <-> P <> pt_O.
Proof. apply pt_eqb_neq. Qed.
Lemma is_infinite_point (P : point Pr) : is_infinite P = false.
Proof. apply is_infinite_fin, point_fin. Qed.

Lemma cbytes_ser (P : point Pr) : cbytes P = ser_point P.
Proof. unfold cbytes, ser_point, has_even_y, xbytes. destruct (pt_odd P); reflexivity. Qed.

Lemma cbytes_ext_ser (P : pt) : cbytes_ext P = ser_mpoint P.
Proof.
  unfold cbytes_ext. destruct (mpoint_cases P) as [-> | [Q ->]].
  - rewrite (proj2 (is_infinite_O _) eq_refl), ser_mpoint_O. reflexivity.
  - rewrite is_infinite_point, ser_mpoint_point. apply cbytes_ser.
Qed.

Lemma cpoint_parse b : cpoint b =
  match parse_point b with Some Q => Ret (pval Q) | None => ValueError end.
Proof.
  unfold cpoint, parse_point. destruct (Nat.eqb_spec (List.length b) 33) as [L|L]; cbn [negb]; [|reflexivity].
  destruct b as [|h xb]; [discriminate|]. cbn [skipn hd].
  replace (firstn 32 xb) with xb by (rewrite firstn_all2; [reflexivity | cbn in L; lia]).
  unfold lift_x. destruct (pt_lift xb) as [P|] eqn:E; [|reflexivity].
  pose proof (proj1 (lift_spec xb P) E) as (Hf & _).
  destruct (not_inf_fin P Hf) as (Q & -> & <-).
  destruct (Byte.eqb h x02) eqn:E2; [apply byte_eqb_eq in E2 as ->; reflexivity|].
  destruct (Byte.eqb h x03) eqn:E3; [apply byte_eqb_eq in E3 as ->; rewrite neg_point_val; reflexivity|].
  destruct h; try reflexivity; discriminate.
Qed.

Lemma cpoint_ser (P : point Pr) : cpoint (ser_point P) = Ret (pval P).
Proof. rewrite cpoint_parse, parse_point_ser. reflexivity. Qed.

Lemma cpoint_ext_parse b : cpoint_ext b =
  match parse_mpoint b with Some Q => Ret Q | None => ValueError end.
Proof.
  unfold cpoint_ext, parse_mpoint. change (be_enc 33 0) with (zeros 33).
  destruct (bytes_eqb b (zeros 33)); [reflexivity|]. rewrite cpoint_parse.
  destruct (parse_point b); reflexivity.
Qed.
Lemma cpoint_ext_ser (P : pt) : cpoint_ext (ser_mpoint P) = Ret P.
Proof. rewrite cpoint_ext_parse, parse_mpoint_ser. reflexivity. Qed.

Lemma point_mul_G (k : mscalar Pr) : point_mul pt_G (fz k) = gmul k.
Proof. reflexivity. Qed.
Lemma point_mul_pmul (k : mscalar Pr) P : point_mul P (fz k) = pmul k P.
Proof. reflexivity. Qed.
Lemma point_mul_Z k P : point_mul P k = pmul (of_Z ord k) P.
Proof. rewrite pmul_of_Z. reflexivity. Qed.
Lemma fz_n (a : mscalar Pr) : fz a < n_.
Proof. apply fz_range. Qed.
Lemma mod_n z : z mod n_ = fz (of_Z ord z).
Proof. reflexivity. Qed.

Lemma reduce_mod h : int_from_bytes h mod n_ = fz (reduce_from h).
Proof. reflexivity. Qed.

Lemma int_ser (a : mscalar Pr) : int_from_bytes (ser_scalar a) = fz a.
Proof. apply be_dec_ser_scalar. Qed.
Lemma bytes_from_fz (a : mscalar Pr) : bytes_from_int (fz a) = ser_scalar a.
Proof. reflexivity. Qed.

Lemma ser_point_eqb (P Q : point Pr) : bytes_eqb (ser_point P) (ser_point Q) = point_eqb P Q.
Proof.
  destruct (point_eqb P Q) eqn:E.
  - apply point_eqb_eq in E as ->. apply bytes_eqb_refl.
  - apply point_eqb_neq in E. apply bytes_eqb_neq. intro H. apply E, ser_point_inj, H.
Qed.

(** *** KeyAgg *)

Lemma hash_keys_eq (pks : list (point Pr)) : hash_keys (map ser_point pks) = hash_pubkeys pks.
Proof.
  unfold hash_keys, hash_pubkeys, tagged_hash, tagged. rewrite tag_keyagg_list, flat_map_ser_concat.
  reflexivity.
Qed.

Lemma find_ser (p0 : point Pr) rest :
  find (fun pk => negb (bytes_eqb pk (ser_point p0))) (map ser_point rest)
  = option_map ser_point (find (fun pk => negb (point_eqb pk p0)) rest).
Proof.
  induction rest as [|q rest IH]; [reflexivity|]. cbn [map find].
  rewrite ser_point_eqb. destruct (point_eqb q p0); cbn [negb]; [apply IH | reflexivity].
Qed.

Lemma second_key_eq (pks : list (point Pr)) :
  get_second_key (map ser_point pks) =
  match second_pubkey pks with Some q => ser_point q | None => zeros 33 end.
Proof.
  destruct pks as [|p0 rest]; [reflexivity|]. cbn [map get_second_key second_pubkey].
  rewrite find_ser. destruct (find _ rest); reflexivity.
Qed.

Lemma coeff_internal_eq (pks : list (point Pr)) pk :
  key_agg_coeff_internal (map ser_point pks) (ser_point pk) (get_second_key (map ser_point pks))
  = fz (coeff_of pks pk).
Proof.
  unfold key_agg_coeff_internal, coeff_of, compute_key_aggregation_coefficient.
  rewrite second_key_eq, hash_keys_eq.
  destruct (second_pubkey pks) as [q|] eqn:E.
  - rewrite ser_point_eqb. destruct (point_eqb pk q).
    + unfold fone. rewrite fz_of_Z, Z.mod_small; [reflexivity|]. pose proof ord_ge_3. lia.
    + rewrite reduce_mod. unfold tagged_hash, tagged. rewrite tag_keyagg_coeff. reflexivity.
  - rewrite (proj2 (bytes_eqb_neq _ _)) by apply ser_point_nonzero.
    rewrite reduce_mod. unfold tagged_hash, tagged. rewrite tag_keyagg_coeff. reflexivity.
Qed.

Lemma coeff_eq (pks : list (point Pr)) pk :
  key_agg_coeff (map ser_point pks) (ser_point pk) = fz (coeff_of pks pk).
Proof. apply coeff_internal_eq. Qed.

Lemma key_agg_loop_eq (pks l : list (point Pr)) i Q :
  key_agg_loop (map ser_point pks) (get_second_key (map ser_point pks)) i (map ser_point l) Q
  = Ret (pt_add Q (psum (map (fun pk => pmul (coeff_of pks pk) (pval pk)) l))).
Proof.
  revert i Q. induction l as [|p l IH]; intros i Q; cbn [map key_agg_loop].
  - rewrite psum_nil, add_O_r. reflexivity.
  - rewrite cpoint_ser. cbn [py_blame py_bind]. rewrite coeff_internal_eq, point_mul_pmul, IH, psum_cons, add_assoc.
    reflexivity.
Qed.

Lemma key_agg_eq (pks : list (point Pr)) :
  key_agg (map ser_point pks) =
  match not_inf (agg_sum_of pks) with
  | Some Q => Ret (KeyAggCtx (pval Q) 1 0)
  | None => AssertFailed
  end.
Proof.
  unfold key_agg. rewrite key_agg_loop_eq, add_O_l. cbn [py_bind].
  fold (agg_sum_of pks). destruct (not_inf (agg_sum_of pks)) as [Q|] eqn:E.
  - apply not_inf_Some in E. rewrite E, is_infinite_point. reflexivity.
  - apply not_inf_None in E. rewrite (proj2 (is_infinite_O _) E). reflexivity.
Qed.

(** A bad key is blamed on its index, as the crate's callers see it when parsing. *)
Lemma key_agg_loop_bad pks0 pk2 (l1 : list (point Pr)) b l2 i Q : parse_point (Pr := Pr) b = None ->
  key_agg_loop pks0 pk2 i (map ser_point l1 ++ b :: l2) Q
  = InvalidContribution (Some (i + List.length l1)%nat) CPubkey.
Proof.
  intro Hb. revert i Q. induction l1 as [|p l1 IH]; intros i Q; cbn [map app key_agg_loop].
  - rewrite cpoint_parse, Hb, Nat.add_0_r. reflexivity.
  - rewrite cpoint_ser. cbn [py_blame py_bind]. rewrite IH. cbn [List.length]. rewrite Nat.add_succ_r. reflexivity.
Qed.

(** *** The reference's context seen from the model *)

Lemma of_Z_gacc par : of_Z ord (gacc_of par) = fneg_if par fone :> mscalar Pr.
Proof.
  destruct par; cbn [gacc_of fneg_if].
  - unfold n_. rewrite of_Z_sub, of_Z_n. fold (@fone (@ord Pr)). ring.
  - reflexivity.
Qed.
Lemma gacc_mod par : gacc_of par mod n_ = gacc_of par.
Proof. pose proof ord_ge_3. apply Z.mod_small. unfold gacc_of, n_. destruct par; lia. Qed.
Lemma fz_gacc par : fz (fneg_if par fone : mscalar Pr) = gacc_of par.
Proof. rewrite <- of_Z_gacc, fz_of_Z. apply gacc_mod. Qed.
Lemma gacc_mul g h : gacc_of g * gacc_of h mod n_ = gacc_of (xorb g h).
Proof.
  rewrite mod_n, of_Z_mul, !of_Z_gacc, <- fz_gacc. f_equal. destruct g, h; cbn [xorb fneg_if]; ring.
Qed.
Lemma point_mul_gacc P par : point_mul P (gacc_of par) = pneg_if par P.
Proof.
  rewrite point_mul_Z, of_Z_gacc, <- pneg_if_pmul_l, pmul_1. reflexivity.
Qed.

Lemma key_agg_new_ref pks c : key_agg_new pks = Ok c -> key_agg (map ser_point pks) = Ret (ref_ctx c).
Proof.
  intro H. rewrite key_agg_eq. apply key_agg_new_Ok in H as (_ & _ & Hwf & Hp & Hpar & Ht).
  assert (E : agg_sum_of pks = pval (pubkey c)).
  { rewrite (wf_key c Hwf), Hp, Hpar, Ht, gmul_0, add_O_r. reflexivity. }
  rewrite E, not_inf_point. unfold ref_ctx, aggregated_pubkey. rewrite Hpar, Ht. reflexivity.
Qed.

Lemma key_agg_new_ref_Err pks e : key_agg_new pks = Err e -> key_agg (map ser_point pks) = AssertFailed.
Proof.
  intro H. rewrite key_agg_eq. apply key_agg_new_Err in H as (_ & _ & E).
  rewrite (proj2 (not_inf_None _) E). reflexivity.
Qed.

(** *** ApplyTweak *)

Lemma with_tweak_gen c (t : scalar Pr) (x : bool) :
  with_tweak c t x =
  let g := andb x (pt_odd (pubkey c)) in
  match not_inf (pt_add (pneg_if g (pubkey c)) (gmul t)) with
  | None => Err TweakError
  | Some Q => Ok (ctx_update c Q (xorb g (parity_acc c)) (fadd t (fneg_if g (tweak_acc c))))
  end.
Proof.
  unfold with_tweak, with_xonly_tweak, with_plain_tweak. cbv zeta.
  assert (E : fadd (tweak_acc c) t = fadd t (tweak_acc c)) by ring.
  assert (E' : fsub t (tweak_acc c) = fadd t (fneg (tweak_acc c))) by ring.
  assert (E2 : xorb false (parity_acc c) = parity_acc c) by (destruct (parity_acc c); reflexivity).
  destruct x, (pt_odd (pubkey c)); cbn [andb negb pneg_if fneg_if];
    rewrite ?E, ?E', ?E2; unfold psub; rewrite ?(add_comm (gmul t)); reflexivity.
Qed.

Lemma apply_tweak_eq c (t : scalar Pr) (x : bool) :
  apply_tweak (ref_ctx c) (ser_scalar t) x =
  match with_tweak c t x with Ok c' => Ret (ref_ctx c') | _ => ValueError end.
Proof.
  rewrite with_tweak_gen. cbv zeta.
  unfold apply_tweak. rewrite ser_scalar_len, int_ser.
  rewrite (proj2 (Nat.eqb_eq 32 32) eq_refl).
  rewrite (proj2 (Z.leb_gt n_ (fz t))) by apply fz_n.
  cbn [negb py_check].
  assert (Hg : (if x && negb (has_even_y (Q_ (ref_ctx c))) then n_ - 1 else 1)
     = gacc_of (x && pt_odd (pubkey c))).
  { unfold has_even_y, ref_ctx, aggregated_pubkey. cbn [Q_]. rewrite negb_involutive. reflexivity. }
  rewrite !Hg. clear Hg. generalize (x && pt_odd (pubkey c))%bool as g. intro g.
  rewrite point_mul_gacc, point_mul_G. unfold ref_ctx at 1 2; unfold aggregated_pubkey. cbn [Q_].
  destruct (not_inf (pt_add (pneg_if g (pubkey c)) (gmul t))) as [Q|] eqn:E.
  - apply not_inf_Some in E. rewrite E, is_infinite_point. cbn [negb py_check].
    unfold ref_ctx, aggregated_pubkey. cbn [ctx_update pubkey parity_acc tweak_acc gacc tacc].
    rewrite gacc_mul.
    rewrite mod_n, of_Z_add, of_Z_mul, of_Z_gacc, !of_Z_fz.
    replace (fadd t (fmul (fneg_if g fone) (tweak_acc c))) with (fadd t (fneg_if g (tweak_acc c)));
      [reflexivity|].
    destruct g; cbn [fneg_if]; ring.
  - apply not_inf_None in E. rewrite (proj2 (is_infinite_O _) E). reflexivity.
Qed.

Lemma apply_tweaks_eq c (ts : list (scalar Pr * bool)) :
  apply_tweaks (ref_ctx c) (ref_tweaks ts) =
  match with_tweaks c ts with Ok c' => Ret (ref_ctx c') | _ => ValueError end.
Proof.
  revert c. induction ts as [|[t x] ts IH]; intro c; [reflexivity|].
  cbn [ref_tweaks map apply_tweaks with_tweaks fst snd]. rewrite apply_tweak_eq.
  destruct (with_tweak c t x) as [c'| |]; cbn [py_bind bind]; try reflexivity. apply IH.
Qed.

Lemma with_tweak_no_panic c (t : scalar Pr) x : with_tweak c t x <> Panic.
Proof.
  rewrite with_tweak_gen. cbv zeta. destruct (not_inf _); discriminate.
Qed.
Lemma with_tweaks_no_panic c (ts : list (scalar Pr * bool)) : with_tweaks c ts <> Panic.
Proof.
  revert c. induction ts as [|[t x] ts IH]; intro c; [discriminate|]. cbn [with_tweaks].
  destruct (with_tweak c t x) eqn:E; cbn [bind]; [apply IH | discriminate | exfalso; exact (with_tweak_no_panic _ _ _ E)].
Qed.

Lemma combine_ref_tweaks (ts : list (scalar Pr * bool)) :
  combine (map (fun tx : scalar Pr * bool => ser_scalar (fst tx)) ts) (map snd ts) = ref_tweaks ts.
Proof. induction ts as [|[t x] ts IH]; [reflexivity|]. cbn [map combine ref_tweaks]. rewrite IH. reflexivity. Qed.

Lemma key_agg_and_tweak_eq pks c (ts : list (scalar Pr * bool)) : key_agg_new pks = Ok c ->
  key_agg_and_tweak (map ser_point pks) (map (fun tx : scalar Pr * bool => ser_scalar (fst tx)) ts) (map snd ts) =
  match with_tweaks c ts with Ok c' => Ret (ref_ctx c') | _ => ValueError end.
Proof.
  intro H. unfold key_agg_and_tweak. rewrite !map_length, Nat.eqb_refl. cbn [py_check].
  rewrite (key_agg_new_ref _ _ H). cbn [py_bind]. rewrite combine_ref_tweaks. apply apply_tweaks_eq.
Qed.

End SpecFacts.
