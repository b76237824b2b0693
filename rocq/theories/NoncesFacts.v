(** Lemmas about nonce generation, the builder calls and nonce aggregation. *)
From Coq Require Import String List Permutation Lia.
From Verif Require Import Bytes BytesFacts Prims PrimsFacts CodecFacts TaggedHashes Errors SpecTags SpecBIP327
  KeyAgg Nonces Signature Signing SigAgg Bip340 Rounds SpecFacts KeyAggFacts SigningFacts SpecSigning SpecNonces.
Import ListNotations.
Open Scope list_scope.
Open Scope Z_scope.

Lemma snoc_inj {A} (a b : list A) x y : a ++ [x] = b ++ [y] -> a = b /\ x = y.
Proof. apply app_inj_tail. Qed.

Lemma app_cong {A} (a b c d : list A) : a = b -> c = d -> a ++ c = b ++ d.
Proof. intros -> ->. reflexivity. Qed.
Lemma cons_inj {A} (x y : A) l m : x :: l = y :: m -> x = y /\ l = m.
Proof. intro H. split; congruence. Qed.

Lemma last_set_fun {C A} (f : C -> option A) l a b : last_set f l a -> last_set f l b -> a = b.
Proof.
  assert (key : forall l1 c l2 (a : A) m1 d m2 b, l1 ++ c :: l2 = m1 ++ d :: m2 -> f c = Some a -> f d = Some b ->
            (forall c, In c l2 -> f c = None) -> (forall c, In c m2 -> f c = None) -> a = b).
  { induction l1 as [|x l1 IH]; intros c l2 a' m1 d m2 b' E Hc Hd H2 Hm.
    - destruct m1 as [|y m1]; cbn [app] in E; injection E as -> E; [congruence|].
      assert (f d = None) by (apply H2; rewrite E; apply in_or_app; right; left; reflexivity). congruence.
    - destruct m1 as [|y m1]; cbn [app] in E; injection E as -> E.
      + assert (f c = None) by (apply Hm; rewrite <- E; apply in_or_app; right; left; reflexivity). congruence.
      + exact (IH _ _ _ _ _ _ _ E Hc Hd H2 Hm). }
  intros H1 H2. inversion H1 as [l0 HN El Ea|l1 c l2 x Hc HN El Ea];
    inversion H2 as [m0 HM Em Eb|m1 d m2 y Hd HM Em Eb]; subst.
  - reflexivity.
  - assert (f d = None) by (apply HN; apply in_or_app; right; left; reflexivity). congruence.
  - assert (f c = None) by (apply HM; apply in_or_app; right; left; reflexivity). congruence.
  - f_equal. symmetry. eapply key; eauto.
Qed.

Lemma last_set_snoc {C A} (f : C -> option A) l c a :
  last_set f l a -> last_set f (l ++ [c]) (match f c with Some x => Some x | None => a end).
Proof.
  intro H. destruct (f c) as [x|] eqn:E.
  - apply last_at with (l2 := []); [exact E|]. intros ? [].
  - inversion H; subst.
    + apply last_never. intros d Hd. apply in_app_or in Hd as [Hd|[<-|[]]]; auto.
    + rewrite <- app_assoc. cbn [app]. apply last_at; [assumption|].
      intros d Hd. apply in_app_or in Hd as [Hd|[<-|[]]]; auto.
Qed.

Lemma last_set_nil {C A} (f : C -> option A) : last_set f [] None.
Proof. apply last_never. intros ? []. Qed.

Lemma last_set_exists {C A} (f : C -> option A) l : exists a, last_set f l a.
Proof.
  induction l as [|c l [a H]] using rev_ind; [exists None; apply last_set_nil|].
  eexists. apply last_set_snoc, H.
Qed.

Lemma zlen_app {A} (a b : list A) : zlen (a ++ b) = zlen a + zlen b.
Proof. unfold zlen. rewrite app_length. lia. Qed.
Lemma zlen_nonneg {A} (a : list A) : 0 <= zlen a.
Proof. unfold zlen. lia. Qed.
Lemma extra_total_app l m : extra_total (l ++ m) = extra_total l + extra_total m.
Proof. unfold extra_total. rewrite concat_app. apply zlen_app. Qed.
Lemma extra_total_nonneg l : 0 <= extra_total l.
Proof. apply zlen_nonneg. Qed.

Section NoncesFacts.
Context {Pr : prims} {Laws : prims_ok Pr} {Tags : tags_ok Pr}.
Add Ring fring0 : (fe_ring_theory (n := @ord Pr)).

(** *** Injectivity of the hash input *)

(** The public key as hashed by [build] (src/nonces.rs:353-359). *)
Definition pk_field (o : option (point Pr)) : bytes :=
  match o with None => [x00] | Some pk => x21 :: ser_point pk end.
(** The aggregated key as hashed by [build] (src/nonces.rs:361-367). *)
Definition agg_field (o : option (point Pr)) : bytes :=
  match o with None => [x00] | Some Q => x20 :: pt_x Q end.
(** The message as hashed by [build] (src/nonces.rs:369-376). *)
Definition msg_field (o : option bytes) : bytes :=
  match o with None => [x00] | Some m => x01 :: be_enc 8 (zlen m) ++ m end.
(** The extra inputs as hashed by [build]: nothing when there are none (src/nonces.rs:379-390). *)
Definition extra_field (l : list bytes) : bytes :=
  match l with [] => [] | l => be_enc 4 (extra_total l) ++ concat l end.
(** What [extra_field] determines of the extra inputs. *)
Definition joined (l : list bytes) : option bytes :=
  match l with [] => None | l => Some (concat l) end.

Lemma preimage_fields (b : builder Pr) :
  nonce_preimage b = masked_seed (nonce_seed_bytes b) (b_seckey b) ++ pk_field (b_pubkey b)
    ++ agg_field (b_aggregated_pubkey b) ++ msg_field (b_message b) ++ extra_field (b_extra_inputs b).
Proof.
  unfold nonce_preimage, masked_seed. rewrite bytes_xor_eq. unfold tagged_hash, tagged. rewrite tag_musig_aux.
  unfold seckey_bytes. destruct (b_seckey b) as [k|]; [rewrite bytes_from_fz|]; destruct (b_extra_inputs b); reflexivity.
Qed.

Lemma tagged_hash_len t m : length (tagged_hash (Pr := Pr) t m) = 32%nat.
Proof. apply sha_len. Qed.

Lemma masked_seed_len seed (sk : option (scalar Pr)) : length (masked_seed seed sk) = 32%nat.
Proof.
  unfold masked_seed. rewrite bytes_xor_eq, xor_bytes_length; destruct sk as [k|];
    rewrite ?bytes_from_fz, ?ser_scalar_len, ?tagged_hash_len, ?zeros_length; reflexivity.
Qed.

Lemma masked_seed_sk seed (sk1 sk2 : option (scalar Pr)) :
  masked_seed seed sk1 = masked_seed seed sk2 -> sk1 = sk2.
Proof.
  unfold masked_seed. rewrite !bytes_xor_eq.
  rewrite (xor_bytes_comm _ (tagged_hash _ _)), (xor_bytes_comm (match sk2 with _ => _ end) (tagged_hash _ _)).
  intro H. apply xor_bytes_inj_r in H;
    [| destruct sk1; rewrite ?bytes_from_fz, ?ser_scalar_len, ?tagged_hash_len, ?zeros_length; reflexivity
     | destruct sk2; rewrite ?bytes_from_fz, ?ser_scalar_len, ?tagged_hash_len, ?zeros_length; reflexivity].
  assert (Z0 : zeros 32 = ser_scalar (fzero : mscalar Pr)) by reflexivity.
  destruct sk1 as [k1|], sk2 as [k2|]; rewrite ?bytes_from_fz in H.
  - f_equal. apply scalar_ext, ser_scalar_inj, H.
  - rewrite Z0 in H. apply ser_scalar_inj in H. destruct (scalar_nz k1 H).
  - rewrite Z0 in H. apply ser_scalar_inj in H. destruct (scalar_nz k2 (eq_sym H)).
  - reflexivity.
Qed.

Lemma pk_field_inj a b r s : pk_field a ++ r = pk_field b ++ s -> a = b /\ r = s.
Proof.
  destruct a as [P|], b as [Q|]; cbn [pk_field app]; intro H; try discriminate; apply cons_inj in H as [_ H].
  - destruct (app_inj_len _ _ _ _ (eq_trans (ser_point_len P) (eq_sym (ser_point_len Q))) H) as [E1 E2].
    split; [f_equal; apply ser_point_inj, E1 | exact E2].
  - auto.
Qed.
Lemma agg_field_inj a b r s : agg_field a ++ r = agg_field b ++ s ->
  option_map (fun Q : point Pr => pt_x Q) a = option_map (fun Q : point Pr => pt_x Q) b /\ r = s.
Proof.
  destruct a as [P|], b as [Q|]; cbn [agg_field app option_map]; intro H; try discriminate; apply cons_inj in H as [_ H].
  - destruct (app_inj_len _ _ _ _ (eq_trans (x_len P) (eq_sym (x_len Q))) H) as [E1 E2].
    split; [f_equal; exact E1 | exact E2].
  - auto.
Qed.
(** The message's length fits the 8 bytes it is written in. *)
Definition msg_small (o : option bytes) : Prop := match o with None => True | Some m => zlen m < 2 ^ 64 end.
Lemma msg_field_inj a b r s : msg_small a -> msg_small b ->
  msg_field a ++ r = msg_field b ++ s -> a = b /\ r = s.
Proof.
  intros Ha Hb.
  destruct a as [m|], b as [m'|]; cbn [msg_field app]; intro H; try discriminate; apply cons_inj in H as [_ H].
  - cbn [msg_small] in *. rewrite <- !app_assoc in H.
    apply app_inj_len in H as [E1 E2]; [|rewrite !be_enc_length; reflexivity].
    apply be_enc_inj in E1; [|split; [apply zlen_nonneg|]; exact Ha|split; [apply zlen_nonneg|]; exact Hb].
    apply app_inj_len in E2 as [-> ->]; [auto|]. unfold zlen in E1. lia.
  - auto.
Qed.
Lemma extra_field_inj l m i j : extra_field l ++ [i] = extra_field m ++ [j] -> joined l = joined m /\ i = j.
Proof.
  intro H. apply snoc_inj in H as [H ->]. split; [|reflexivity].
  destruct l as [|x l], m as [|y m]; cbn [extra_field joined] in *; [reflexivity| | |].
  - apply (f_equal (@length _)) in H. rewrite app_length, be_enc_length in H. discriminate.
  - apply (f_equal (@length _)) in H. rewrite app_length, be_enc_length in H. discriminate.
  - apply app_inj_len in H as [_ ->]; [reflexivity|]. rewrite !be_enc_length. reflexivity.
Qed.

Lemma preimage_inj (b1 b2 : builder Pr) i1 i2 :
  msg_small (b_message b1) -> msg_small (b_message b2) ->
  nonce_preimage b1 ++ [i1] = nonce_preimage b2 ++ [i2] ->
  i1 = i2 /\ masked_seed (nonce_seed_bytes b1) (b_seckey b1) = masked_seed (nonce_seed_bytes b2) (b_seckey b2) /\
  b_pubkey b1 = b_pubkey b2 /\
  option_map (fun Q : point Pr => pt_x Q) (b_aggregated_pubkey b1)
    = option_map (fun Q : point Pr => pt_x Q) (b_aggregated_pubkey b2) /\
  b_message b1 = b_message b2 /\ joined (b_extra_inputs b1) = joined (b_extra_inputs b2).
Proof.
  intros M1 M2 H. rewrite !preimage_fields, <- !app_assoc in H.
  apply app_inj_len in H as [E1 H]; [|rewrite !masked_seed_len; reflexivity].
  apply pk_field_inj in H as [E2 H]. apply agg_field_inj in H as [E3 H].
  apply msg_field_inj in H as [E4 H]; [|assumption..]. apply extra_field_inj in H as [E5 E6]. auto 10.
Qed.

Lemma extra_field_joined l m : joined l = joined m -> extra_field l = extra_field m.
Proof.
  destruct l as [|x l], m as [|y m]; cbn [joined extra_field]; intro H; try discriminate; [reflexivity|].
  injection H as H. unfold extra_total. cbn [concat]. rewrite H. reflexivity.
Qed.
Lemma agg_field_x a b : option_map (fun Q : point Pr => pt_x Q) a = option_map (fun Q : point Pr => pt_x Q) b ->
  agg_field a = agg_field b.
Proof.
  destruct a, b; cbn [option_map agg_field]; intro H; try discriminate; [|reflexivity].
  injection H as ->. reflexivity.
Qed.

Lemma request_eq (b1 b2 : builder Pr) : request_of b1 = request_of b2 <->
  masked_seed (nonce_seed_bytes b1) (b_seckey b1) = masked_seed (nonce_seed_bytes b2) (b_seckey b2) /\
  b_pubkey b1 = b_pubkey b2 /\
  option_map (fun Q : point Pr => pt_x Q) (b_aggregated_pubkey b1)
    = option_map (fun Q : point Pr => pt_x Q) (b_aggregated_pubkey b2) /\
  b_message b1 = b_message b2 /\ joined (b_extra_inputs b1) = joined (b_extra_inputs b2).
Proof.
  unfold request_of. split.
  - intro H. injection H as H1 H2 H3 H4 H5. split; [exact H1|].
    split; [|split; [exact H3|split; [exact H4|]]].
    2: { destruct (b_extra_inputs b1), (b_extra_inputs b2); exact H5. }
    destruct (b_pubkey b1) as [P|], (b_pubkey b2) as [Q|]; cbn [option_map] in H2; try discriminate; [|reflexivity].
    injection H2 as H2 H2'. f_equal. apply ser_point_inj. rewrite <- !cbytes_ser. unfold cbytes. congruence.
  - intros (E1 & E2 & E3 & E4 & E5). unfold xbytes. rewrite E1, E2, E3, E4.
    replace (match b_extra_inputs b1 with [] => None | _ => _ end) with (joined (b_extra_inputs b1))
      by (destruct (b_extra_inputs b1); reflexivity).
    rewrite E5. destruct (b_extra_inputs b2); reflexivity.
Qed.

Lemma request_preimage (b1 b2 : builder Pr) : request_of b1 = request_of b2 -> nonce_preimage b1 = nonce_preimage b2.
Proof.
  intro H. apply request_eq in H as (E1 & E2 & E3 & E4 & E5). rewrite !preimage_fields, E1, E2, E4.
  rewrite (agg_field_x _ _ E3), (extra_field_joined _ _ E5). reflexivity.
Qed.

(** *** Scalars of a build *)

Lemma build_ints (b : builder Pr) :
  (fz (sval (k1 (build b))) = let k := nonce_int (Pr := Pr) (nonce_preimage b ++ [x00]) in if k =? 0 then 1 else k) /\
  (fz (sval (k2 (build b))) = let k := nonce_int (Pr := Pr) (nonce_preimage b ++ [x01]) in if k =? 0 then 1 else k).
Proof.
  assert (A : forall m, fz (sval (nonce_scalar (tagged MUSIG_NONCE_TAG_DIGEST m)))
                        = let k := nonce_int (Pr := Pr) m in if k =? 0 then 1 else k).
  { intro m. cbv zeta. unfold nonce_int, tagged_hash, tagged. rewrite tag_musig_nonce, reduce_mod.
    set (h := sha256 _). destruct (fe_eq_dec (reduce_from h) fzero) as [E|E].
    - rewrite (nonce_scalar_zero h E), E. cbn [sval scalar_one]. 
      change (fz (fzero : mscalar Pr)) with 0. cbn [Z.eqb]. apply Z.mod_small.
      change (Z.pos (@ord Pr)) with n_. pose proof ord_prime. unfold n_.
      destruct H as [H _]. lia.
    - rewrite (nonce_scalar_eq h E). destruct (fz (reduce_from h) =? 0) eqn:E0; [|reflexivity].
      apply fz_zero in E0. contradiction. }
  split; apply A.
Qed.

(** *** BIP327 inputs *)

Lemma gen_internal_cases rand_ sk pk aggpk msg extra :
  let h i := nonce_int (Pr := Pr) (bip327_nonce_input rand_ sk pk aggpk msg extra i) in
  nonce_gen_internal rand_ sk pk aggpk msg extra =
  if (h 0 =? 0) || (h 1 =? 0) then AssertFailed
  else Ret (bytes_from_int (h 0) ++ bytes_from_int (h 1) ++ pk,
            cbytes (point_mul pt_G (h 0)) ++ cbytes (point_mul pt_G (h 1))).
Proof.
  cbv zeta.
  assert (A : forall i, nonce_hash (match sk with Some sk => bytes_xor sk (tagged_hash "MuSig/aux" rand_) | None => rand_ end)
            pk (match aggpk with None => [] | Some a => a end) i
            (match msg with None => [x00] | Some m => [x01] ++ be_enc 8 (zlen m) ++ m end)
            (match extra with None => [] | Some e => e end) mod n_
          = nonce_int (Pr := Pr) (bip327_nonce_input rand_ sk pk aggpk msg extra i)).
  { intro i. unfold nonce_hash, nonce_int, bip327_nonce_input. cbv zeta. rewrite <- !app_assoc. reflexivity. }
  unfold nonce_gen_internal. cbv zeta. rewrite !A. clear A.
  assert (B : forall m, exists k : mscalar Pr, nonce_int (Pr := Pr) m = fz k).
  { intro m. eexists. apply reduce_mod. }
  destruct (B (bip327_nonce_input rand_ sk pk aggpk msg extra 0)) as [a ->].
  destruct (B (bip327_nonce_input rand_ sk pk aggpk msg extra 1)) as [c ->].
  destruct (fz a =? 0) eqn:Ea; [reflexivity|]. destruct (fz c =? 0) eqn:Ec; [reflexivity|].
  cbn [negb py_assert orb]. rewrite !point_mul_G.
  assert (F : forall k : mscalar Pr, (fz k =? 0) = false -> is_infinite (gmul k) = false).
  { intros k Hk. apply is_infinite_fin. rewrite gmul_eq_O. intro E. apply fz_zero in E. congruence. }
  rewrite (F _ Ea), (F _ Ec). reflexivity.
Qed.

Lemma bip327_input_len_pk (b : builder Pr) pk i :
  bip327_input_of b pk i =
  (match b_seckey b with Some k => masked_seed (nonce_seed_bytes b) (Some k) | None => nonce_seed_bytes b end)
  ++ pk_field (Some pk) ++ agg_field (b_aggregated_pubkey b) ++ msg_field (b_message b)
  ++ (match b_extra_inputs b with [] => be_enc 4 0 | l => extra_field l end) ++ [z2b i].
Proof.
  unfold bip327_input_of, bip327_nonce_input. cbv zeta. cbn [request_of nr_aggpk nr_extra].
  replace (match option_map _ (b_seckey b) with Some sk => _ | None => nonce_seed_bytes b end)
    with (match b_seckey b with Some k => masked_seed (nonce_seed_bytes b) (Some k) | None => nonce_seed_bytes b end)
    by (destruct (b_seckey b); reflexivity).
  rewrite cbytes_ser. unfold zlen at 1. rewrite ser_point_len. change (be_enc 1 (Z.of_nat 33)) with [x21].
  apply app_cong; [reflexivity|]. cbn [pk_field app]. f_equal. apply app_cong; [reflexivity|].
  apply app_cong.
  { destruct (b_aggregated_pubkey b) as [Q|]; cbn [option_map agg_field]; [|reflexivity].
    unfold xbytes, zlen. rewrite x_len. reflexivity. }
  apply app_cong; [reflexivity|]. apply app_cong; [|reflexivity].
  destruct (b_extra_inputs b) as [|x l]; reflexivity.
Qed.

Lemma input_matches_iff (b : builder Pr) pk i :
  length (nonce_seed_bytes b) = 32%nat -> b_pubkey b = Some pk ->
  (nonce_preimage b ++ [z2b i] = bip327_input_of b pk i <->
   b_extra_inputs b <> [] /\ (b_seckey b <> None \/ tagged_hash "MuSig/aux" (nonce_seed_bytes b) = nonce_seed_bytes b)).
Proof.
  intros HL Hp. rewrite bip327_input_len_pk, preimage_fields, Hp, <- !app_assoc.
  assert (HM : masked_seed (nonce_seed_bytes b) None = tagged_hash "MuSig/aux" (nonce_seed_bytes b)).
  { unfold masked_seed. rewrite bytes_xor_eq. apply xor_bytes_zeros_l, tagged_hash_len. }
  split.
  - intro H. apply app_inj_len in H as [E1 H].
    2: { rewrite masked_seed_len. destruct (b_seckey b); [rewrite masked_seed_len|]; auto. }
    split.
    + intro En. rewrite En in H. cbn [extra_field app] in H.
      do 3 apply app_inv_head in H. apply (f_equal (@length _)) in H.
      rewrite app_length, be_enc_length in H. discriminate H.
    + destruct (b_seckey b); [left; discriminate|right]. congruence.
  - intros [En Hs]. f_equal.
    + destruct (b_seckey b); [reflexivity|]. destruct Hs as [Hs|Hs]; [congruence|]. rewrite HM. exact Hs.
    + destruct (b_extra_inputs b); [congruence|reflexivity].
Qed.

(** *** Builder call sequences *)

(** The fields of a builder after a sequence of calls, in terms of the calls. *)
Definition b_is (seed : bytes) (l : list (bcall Pr)) (b : builder Pr) : Prop :=
  nonce_seed_bytes b = seed /\ last_set sets_seckey l (b_seckey b) /\ last_set sets_pubkey l (b_pubkey b) /\
  last_set sets_aggregated l (b_aggregated_pubkey b) /\ last_set sets_message l (b_message b) /\
  b_extra_inputs b = concat (map adds_extra l).

Lemma brun_snoc (b : builder Pr) l c : brun b (l ++ [c]) = bind (brun b l) (fun b' => bstep b' c).
Proof.
  revert b. induction l as [|d l IH]; intro b; cbn [app brun bind].
  - destruct (bstep b c); reflexivity.
  - destruct (bstep b d) as [b'| |]; cbn [bind]; [apply IH|reflexivity|reflexivity].
Qed.

Lemma ls_snoc {C A} (f : C -> option A) l c a a' :
  last_set f l a -> a' = (match f c with Some x => Some x | None => a end) -> last_set f (l ++ [c]) a'.
Proof. intros H ->. apply last_set_snoc, H. Qed.

Ltac opt_or_refl :=
  first [reflexivity
        | cbn [sets_seckey sets_message]; unfold opt_or;
          match goal with |- context [match ?x with _ => _ end] => destruct x; reflexivity end].
Lemma brun_spec seed (l : list (bcall Pr)) :
  (extra_total (concat (map adds_extra l)) <= u32_max /\ exists b, brun (builder_new seed) l = Ok b /\ b_is seed l b) \/
  (u32_max < extra_total (concat (map adds_extra l)) /\ brun (builder_new seed) l = Panic).
Proof.
  induction l as [|c l IH] using rev_ind.
  - left. split; [vm_compute; discriminate|]. exists (builder_new seed). split; [reflexivity|].
    unfold b_is. cbn [builder_new nonce_seed_bytes b_seckey b_pubkey b_aggregated_pubkey b_message b_extra_inputs map concat].
    repeat split; apply last_set_nil.
  - rewrite brun_snoc, map_app, concat_app, extra_total_app. cbn [map concat]. rewrite app_nil_r.
    pose proof (extra_total_nonneg (adds_extra c)) as Hnn.
    destruct IH as [[Hle (b & -> & Hb)]|[Hgt ->]]; cbn [bind].
    2: { right. split; [lia|reflexivity]. }
    destruct Hb as (Hs & H1 & H2 & H3 & H4 & H5).
    assert (HT : extra_total (b_extra_inputs b ++ adds_extra c)
                 = extra_total (concat (map adds_extra l)) + extra_total (adds_extra c))
      by (rewrite extra_total_app, H5; reflexivity).
    destruct (Z.leb_spec (extra_total (b_extra_inputs b ++ adds_extra c)) u32_max) as [Hc|Hc].
    + left. split; [lia|].
      assert (Hc' : extra_input_ok (b_extra_inputs b ++ adds_extra c) = true) by (apply Z.leb_le; exact Hc).
      destruct c as [pk|sk|m|Q|e|s]; cbn [bstep adds_extra] in *;
        unfold with_extra_input, with_spices; rewrite ?Hc'; (eexists; split; [reflexivity|]);
        unfold b_is;
        cbn [with_pubkey with_seckey with_message with_aggregated_pubkey set_extra_inputs
             nonce_seed_bytes b_seckey b_pubkey b_aggregated_pubkey b_message b_extra_inputs];
        (split; [exact Hs|]);
        (split; [eapply ls_snoc; [exact H1|opt_or_refl]|]);
        (split; [eapply ls_snoc; [exact H2|reflexivity]|]);
        (split; [eapply ls_snoc; [exact H3|reflexivity]|]);
        (split; [eapply ls_snoc; [exact H4|opt_or_refl]|]);
        rewrite map_app, concat_app; cbn [map concat adds_extra]; rewrite ?app_nil_r, H5; reflexivity.
    + right. split; [lia|].
      assert (Hc' : extra_input_ok (b_extra_inputs b ++ adds_extra c) = false) by (apply Z.leb_gt; exact Hc).
      destruct c as [pk|sk|m|Q|e|s]; cbn [bstep adds_extra] in *;
        unfold with_extra_input, with_spices; rewrite ?Hc'; try reflexivity;
        exfalso; change (extra_total []) with 0 in HT; lia.
Qed.

(** The same for the spices of [FirstRound::new]. *)
Definition sp_is (l : list (scall Pr)) (s : spices Pr) : Prop :=
  last_set ssets_seckey l (sp_seckey s) /\ last_set ssets_message l (sp_message s) /\
  sp_extra_inputs s = concat (map sadds_extra l).
Lemma srun_snoc (s : spices Pr) l c : srun s (l ++ [c]) = bind (srun s l) (fun s' => sstep s' c).
Proof.
  revert s. induction l as [|d l IH]; intro s; cbn [app srun bind].
  - destruct (sstep s c); reflexivity.
  - destruct (sstep s d) as [s'| |]; cbn [bind]; [apply IH|reflexivity|reflexivity].
Qed.
Lemma srun_spec (l : list (scall Pr)) :
  (extra_total (concat (map sadds_extra l)) <= u32_max /\ exists s, srun spices_new l = Ok s /\ sp_is l s) \/
  (u32_max < extra_total (concat (map sadds_extra l)) /\ srun (Pr := Pr) spices_new l = Panic).
Proof.
  induction l as [|c l IH] using rev_ind.
  - left. split; [vm_compute; discriminate|]. exists spices_new. split; [reflexivity|].
    repeat split; apply last_set_nil.
  - rewrite srun_snoc, map_app, concat_app, extra_total_app. cbn [map concat]. rewrite app_nil_r.
    pose proof (extra_total_nonneg (sadds_extra c)) as Hnn.
    destruct IH as [[Hle (s & -> & Hb)]|[Hgt ->]]; cbn [bind].
    2: { right. split; [lia|reflexivity]. }
    destruct Hb as (H1 & H2 & H5).
    assert (HT : extra_total (sp_extra_inputs s ++ sadds_extra c)
                 = extra_total (concat (map sadds_extra l)) + extra_total (sadds_extra c))
      by (rewrite extra_total_app, H5; reflexivity).
    destruct (Z.leb_spec (extra_total (sp_extra_inputs s ++ sadds_extra c)) u32_max) as [Hc|Hc].
    + left. split; [lia|].
      assert (Hc' : extra_input_ok (sp_extra_inputs s ++ sadds_extra c) = true) by (apply Z.leb_le; exact Hc).
      destruct c as [sk|m|e]; cbn [sstep sadds_extra] in *;
        unfold sp_with_extra_input; cbv zeta; rewrite ?Hc'; (eexists; split; [reflexivity|]);
        unfold sp_is; cbn [sp_with_seckey sp_with_message sp_seckey sp_message sp_extra_inputs];
        (split; [eapply ls_snoc; [exact H1|opt_or_refl]|]);
        (split; [eapply ls_snoc; [exact H2|reflexivity]|]);
        rewrite map_app, concat_app; cbn [map concat sadds_extra]; rewrite ?app_nil_r, H5; reflexivity.
    + right. split; [lia|].
      assert (Hc' : extra_input_ok (sp_extra_inputs s ++ sadds_extra c) = false) by (apply Z.leb_gt; exact Hc).
      destruct c as [sk|m|e]; cbn [sstep sadds_extra] in *;
        unfold sp_with_extra_input; cbv zeta; rewrite ?Hc'; try reflexivity;
        exfalso; change (extra_total []) with 0 in HT; lia.
Qed.

End NoncesFacts.
