(** Proofs of the theorems of PropertiesTapAim.v. *)
From Coq Require Import String List.
From Verif Require Import Bytes BytesFacts Prims PrimsFacts TaggedHashes Errors SpecTags SpecBIP327
  KeyAgg SpecExtract SpecFork SpecCollision SpecCommit SpecGroupKey SpecGroupTap SpecTapAim Toy ToyData ToyFork ToyGroupKey ToyGroupTap ToyTapAim.
Import ListNotations.
Open Scope list_scope.
Open Scope Z_scope.
From Coq Require Import Lia Arith Bool Znumtheory.
From Verif Require Import CodecFacts KeyAggFacts SpecFacts ProofsSoundness ProofsExtraction ForkFacts ProofsFork ProofsGroupFork ProofsConcurrent ProofsCollision ProofsBatchForger ProofsCommit ProofsFinal ProofsGroupKey ProofsGroupTap.
Open Scope Z_scope.

(** A question with one of few digests. *)
Section One.
Context {Pr : prims} {A : Type} (F : asker A) (inputs digests : list bytes) (q c : nat) (E : bytes -> bytes -> bool) (HS : NoDup digests) (Hc : forall y, (count (E y) digests <= c)%nat) (HF : asks_within inputs digests (fun _ => True) q F).
Let W := worlds inputs digests.
Definition one_at (p : nat) (w : list (bytes * bytes)) : bool := match new_at (qs F) p w with Some y => E y (hash_in w y) | None => false end.
Lemma one_rare (bad : list (bytes * bytes) -> bool) : (forall w, In w W -> bad w = true -> exists y, In y (qs F w) /\ E y (hash_in w y) = true) -> (length digests * count bad W <= q * (length W * c))%nat.
Proof.
  intro H. replace (q * (length W * c))%nat with (length (map one_at (seq 0 q)) * (length W * c))%nat by (rewrite map_length, seq_length; reflexivity). apply union_bound.
  - intros w Hw B. destruct (H w Hw B) as (y & I & R). destruct (place_some _ _ I) as [k P]. pose proof (place_lt _ _ _ P) as B1. pose proof (proj2 (qs_facts F inputs digests q _ HF w Hw)) as QL.
    exists (one_at k). split; [apply in_map, in_seq; lia|]. unfold one_at. rewrite (place_is_new F y k w P). exact R.
  - intros g Hg. apply in_map_iff in Hg as (p & <- & _). apply (few_place F inputs digests q _ HF p c _ HS).
    + intros w Hw B. unfold one_at in B. unfold has_new. destruct (new_at (qs F) p w); [reflexivity | discriminate B].
    + intros u x Hu Hx _. eapply Nat.le_trans; [|apply (Hc x)]. apply count_le. intros d Hd B. unfold one_at in B.
      rewrite (new_at_put inputs digests (qs F) (qs_in F inputs digests q _ HF) (qs_same F inputs digests) p u x d Hu Hd Hx) in B. rewrite (two_hash_x F inputs digests q _ HF u x d p Hu Hx) in B. exact B.
Qed.
End One.

Section TapAim.
Context {Pr : prims} {Laws : prims_ok Pr} {Tags : tags_ok Pr}.
Definition ask_one (d0 : bytes) (g : funded Pr) : asker unit := ask_group (fst g) (fun _ => d0) (fun h => tap_ask h g (Give tt)).
Lemma ask_one_within inputs digests u d0 g : In d0 digests -> funded_covered inputs digests u g -> asks_within inputs digests (fun _ => True) (u + 2) (ask_one d0 g).
Proof.
  intros Hd [C T]. replace (u + 2)%nat with (1 + (u + 1))%nat by lia. unfold ask_one. apply ask_group_within; [exact C | intros _; exact Hd|]. intros h Hh.
  unfold tap_ask. destruct (agg_x h (fst g)) as [x|] eqn:E; [|exact I]. cbn [asks_within]. split; [apply (T h x Hh E)|]. intros; exact I.
Qed.
Lemma ask_one_asked inputs digests w d0 g x : (forall d, In d digests -> length d = 32%nat) -> In w (worlds inputs digests) -> In d0 digests -> agg_x (hash_in w) (fst g) = Some x -> In (tap_q x (snd g)) (asked (hash_in w) (ask_one d0 g)).
Proof.
  destruct g as [l m]. cbn [fst snd]. intros HS32 Hw Hd E. pose proof (hash_in_len inputs digests w HS32 Hw) as HL. pose proof (with_hash_ok _ HL) as LI. unfold ask_one. cbn [fst snd].
  match goal with |- context [asked _ (ask_group ?l ?h ?k)] => destruct (ask_group_spec (hash_in w) k l h) as (h1 & a1 & A1 & B1 & C1 & D1 & P1) end. rewrite A1. cbv beta.
  assert (H1 : forall m, length (h1 m) = 32%nat) by (apply (P1 (fun b => length b = 32%nat)); [intros _; apply HS32, Hd | exact HL]). pose proof (with_hash_ok _ H1) as LI1.
  assert (X : agg_x h1 l = Some x) by (apply (agg_x_agree (hash_in w) h1 LI LI1); [exact C1 | exact D1 | exact E]).
  unfold tap_ask. cbn [fst snd]. rewrite X. cbn [asked]. apply in_app_iff. right. left. reflexivity.
Qed.
Lemma tap_rare (F : asker (funded Pr)) (inputs digests : list bytes) (q u c : nat) (E : bytes -> bytes -> bool) (bad : list (bytes * bytes) -> bool) : NoDup digests -> (forall d, In d digests -> length d = 32%nat) -> (forall y, (count (E y) digests <= c)%nat) -> one_funded_within inputs digests q u F ->
  (forall w, In w (worlds inputs digests) -> bad w = true -> exists z, agg_x (hash_in w) (fst (outcome (hash_in w) F)) = Some z /\ let y := tap_q z (snd (outcome (hash_in w) F)) in E y (hash_in w y) = true) ->
  (length digests * count bad (worlds inputs digests) <= (q + u + 2) * c * length digests ^ length inputs)%nat.
Proof.
  intros HS HS32 Hc HF HB. destruct digests as [|d0 ds] eqn:ED; [cbn [length Nat.mul]; apply Nat.le_0_l|]. rewrite <- ED in *. assert (Hd : In d0 digests) by (rewrite ED; left; reflexivity). clear ED ds.
  assert (HG : asks_within inputs digests (fun _ => True) (q + u + 2) (and_then F (ask_one d0))).
  { replace (q + u + 2)%nat with (q + (u + 2))%nat by lia. apply (within_then _ _ _ _ q _ F _ HF). intros g C. apply ask_one_within; assumption. }
  rewrite <- (length_worlds inputs digests), <- Nat.mul_assoc, (Nat.mul_comm c). apply (one_rare (and_then F (ask_one d0)) inputs digests (q + u + 2) c E HS Hc HG).
  intros w Hw B. destruct (HB w Hw B) as (z & Z1 & R). cbv zeta in R. exists (tap_q z (snd (outcome (hash_in w) F))). split; [|exact R]. unfold qs. rewrite asked_then. apply in_app_iff. right. apply (ask_one_asked inputs digests); assumption.
Qed.
(** The digests with a given output key. *)
Definition out_is (x y d : bytes) : bool := match @out_of Pr y d with Some x' => bytes_eqb x x' | None => false end.
Lemma out_is_few digests x y : NoDup digests -> (count (out_is x y) digests <= 2)%nat.
Proof.
  intro ND. destruct (existsb (out_is x y) digests) eqn:EX.
  - apply existsb_exists in EX as (d0 & _ & H0). unfold out_is in H0. destruct (@out_of Pr y d0) as [x0|] eqn:O; [|discriminate H0]. apply bytes_eqb_eq in H0 as <-.
    eapply Nat.le_trans; [|apply (@same_out_few Pr Laws digests y d0 y ND)]. apply count_le. intros d _ H. unfold same_out. rewrite O. exact H.
  - replace (count (out_is x y) digests) with 0%nat; [lia|]. symmetry. unfold count. destruct (filter (out_is x y) digests) as [|d ds] eqn:E; [reflexivity | exfalso].
    assert (I0 : In d (filter (out_is x y) digests)) by (rewrite E; left; reflexivity). apply filter_In in I0 as [I1 I2]. assert (existsb (out_is x y) digests = true) by (apply existsb_exists; exists d; auto). congruence.
Qed.
(** The digests with none. *)
Definition cancels (y d : bytes) : bool := match @lift_x Pr (firstn 32 (skipn 64 y)), @parse_mscalar Pr d with Some P, Some t => pt_eqb (pt_add P (gmul t)) pt_O | _, _ => false end.
Definition out_none (y d : bytes) : bool := @no_scalar Pr d || cancels y d.
Lemma cancels_few digests y : NoDup digests -> (count (cancels y) digests <= 1)%nat.
Proof.
  intro ND. unfold count. pose proof (NoDup_filter (cancels y) ND) as NF. assert (IF : forall d, In d (filter (cancels y) digests) -> cancels y d = true) by (intros d Hd; apply filter_In in Hd; apply Hd).
  destruct (filter (cancels y) digests) as [|a [|b r]]; cbn [length]; try lia. exfalso. inversion NF as [|? ? N1 _]; subst. apply N1. left.
  pose proof (IF a (or_introl eq_refl)) as Ca. pose proof (IF b (or_intror (or_introl eq_refl))) as Cb. unfold cancels in Ca, Cb. destruct (lift_x (firstn 32 (skipn 64 y))) as [P|]; [|discriminate Ca].
  destruct (parse_mscalar a) as [ta|] eqn:Ta; [|discriminate Ca]. destruct (parse_mscalar b) as [tb|] eqn:Tb; [|discriminate Cb]. apply pt_eqb_eq in Ca, Cb. apply parse_mscalar_Some in Ta, Tb. subst a b. f_equal.
  apply gmul_inj, (add_cancel_l P). congruence.
Qed.
Lemma out_none_few digests y : NoDup digests -> (count (out_none y) digests <= count (@no_scalar Pr) digests + 1)%nat.
Proof.
  intro ND. eapply Nat.le_trans; [apply (count_or _ (@no_scalar Pr) (cancels y)); intros d _ H; apply orb_true_iff in H; exact H|]. pose proof (cancels_few digests y ND). lia.
Qed.
Lemma refused_none h (c : key_agg_ctx (with_hash Pr h)) root e : prims_ok (with_hash Pr h) -> (forall m, length (h m) = 32%nat) -> @with_taproot_tweak (with_hash Pr h) c root = Err e ->
  let y := tap_q (pt_x (pval (@aggregated_pubkey (with_hash Pr h) c))) root in out_none y (h y) = true.
Proof.
  cbv zeta. intros LI HL T. set (P := unhash (pubkey c)). set (y := tap_q (@pt_x Pr (pval P)) root). change (out_none y (h y) = true).
  unfold with_taproot_tweak, with_taproot_tweak_internal in T. cbv zeta in T.
  match type of T with match parse_scalar ?m with _ => _ end = _ => assert (EM : m = h y) end.
  { unfold tagged, y, tap_q, tag_twice. cbn [sha256 with_hash]. rewrite tag_taptweak, <- !app_assoc. reflexivity. }
  rewrite EM in T. unfold out_none. apply orb_true_iff. destruct (@parse_scalar (with_hash Pr h) (h y)) as [t|] eqn:PS.
  - right. apply (@parse_scalar_Some (with_hash Pr h) LI) in PS. unfold cancels.
    assert (X : firstn 32 (skipn 64 y) = pt_x (pval P)).
    { unfold y, tap_q. assert (TL : length (@tag_twice Pr "TapTweak") = 64%nat) by apply tag_len. rewrite skipn_app, TL, skipn_all2 by (rewrite TL; lia). cbn [app Nat.sub skipn]. rewrite firstn_app, x_len, firstn_all2 by (rewrite x_len; lia). cbn [Nat.sub firstn]. apply app_nil_r. }
    rewrite X, lift_x_x, PS. change (@ser_scalar (with_hash Pr h) (sval t)) with (@ser_scalar Pr (sval t)). rewrite (proj2 (parse_mscalar_Some _ (sval t : mscalar Pr)) eq_refl). rewrite even_point_val. apply pt_eqb_eq.
    unfold with_xonly_tweak, with_plain_tweak in T. change (pval (pubkey c)) with (pval P) in T. unfold to_even_y, pneg_if. change (@pt_odd (with_hash Pr h)) with (@pt_odd Pr) in T.
    destruct (pt_odd P); cbn [negb] in T.
    + destruct (@not_inf (with_hash Pr h) _) as [Q|] eqn:N in T; [discriminate T|]. apply (@not_inf_None (with_hash Pr h) LI) in N. etransitivity; [|exact N]. exact (@add_comm Pr Laws (pt_neg P) (@gmul Pr (sval t))).
    + destruct (@not_inf (with_hash Pr h) _) as [Q|] eqn:N in T; [discriminate T|]. apply (@not_inf_None (with_hash Pr h) LI) in N. exact N.
  - left. apply (@parse_scalar_None (with_hash Pr h) LI) in PS. unfold no_scalar. apply orb_true_iff. rewrite Z.eqb_eq, Z.leb_le. destruct PS as [PS | [PS | PS]]; [exfalso; apply PS, HL | left; exact PS | right; exact PS].
Qed.
End TapAim.

Section C107_output_not_aimed.
Context {Pr : prims}.
Add Ring ring_C107_output_not_aimed : (fe_ring_theory (n := @ord Pr)).
Lemma C107_output_not_aimed_proof {Laws : prims_ok Pr} {Tags : tags_ok Pr} (x : bytes) (F : asker (funded Pr)) (inputs digests : list bytes) (q u : nat) (HS : NoDup digests) (HS32 : forall d, In d digests -> length d = 32%nat) (HF : one_funded_within inputs digests q u F) :
  let N := length digests in
  (N * count (tap_aimed x F) (worlds inputs digests) <= (q + u + 2) * 2 * N ^ length inputs)%nat.
Proof.
  cbv zeta. apply (tap_rare F inputs digests q u 2 (@out_is Pr x) _ HS HS32); [intro y; apply (out_is_few digests x y HS) | exact HF|].
  intros w Hw H. pose proof (with_hash_ok _ (hash_in_len inputs digests w HS32 Hw)) as LI. unfold tap_aimed in H. cbv zeta in H. destruct (funded_output (hash_in w) (outcome (hash_in w) F)) as [o|] eqn:O; [|discriminate H].
  apply (funded_out _ _ o LI) in O as (z & Z1 & _ & U1). exists z. split; [exact Z1|]. cbv zeta. unfold out_is. rewrite U1. exact H.
Qed.
End C107_output_not_aimed.

Section C107_tweak_refused.
Context {Pr : prims}.
Add Ring ring_C107_tweak_refused : (fe_ring_theory (n := @ord Pr)).
Lemma C107_tweak_refused_proof {Laws : prims_ok Pr} {Tags : tags_ok Pr} (F : asker (funded Pr)) (inputs digests : list bytes) (q u : nat) (HS : NoDup digests) (HS32 : forall d, In d digests -> length d = 32%nat) (HF : one_funded_within inputs digests q u F) :
  let N := length digests in let b := count (@no_scalar Pr) digests in
  (N * count (tap_refused F) (worlds inputs digests) <= (q + u + 2) * (b + 1) * N ^ length inputs)%nat.
Proof.
  cbv zeta. apply (tap_rare F inputs digests q u _ (@out_none Pr) _ HS HS32); [intro y; apply (out_none_few digests y HS) | exact HF|].
  intros w Hw H. pose proof (hash_in_len inputs digests w HS32 Hw) as HL. pose proof (with_hash_ok _ HL) as LI. unfold tap_refused in H. cbv zeta in H. unfold agg_x. destruct (@key_agg_new (with_hash Pr (hash_in w)) _) as [c| |] eqn:K; try discriminate H.
  destruct (@with_taproot_tweak (with_hash Pr (hash_in w)) c (snd (outcome (hash_in w) F))) as [c'|e|] eqn:T; try discriminate H.
  exists (pt_x (pval (aggregated_pubkey c))). split; [reflexivity|]. apply (refused_none (hash_in w) c _ e LI HL T).
Qed.
End C107_tweak_refused.
