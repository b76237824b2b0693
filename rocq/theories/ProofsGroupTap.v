(** Proofs of the theorems of PropertiesGroupTap.v. *)
From Coq Require Import String List.
From Verif Require Import Bytes BytesFacts Prims PrimsFacts TaggedHashes Errors SpecTags SpecBIP327
  KeyAgg SpecExtract SpecFork SpecCollision SpecCommit SpecGroupKey SpecGroupTap Toy ToyData ToyFork ToyGroupKey ToyGroupTap.
Import ListNotations.
Open Scope list_scope.
Open Scope Z_scope.
From Coq Require Import Lia Arith Bool Znumtheory.
From Verif Require Import CodecFacts KeyAggFacts SpecFacts ProofsSoundness ProofsExtraction ForkFacts ProofsFork ProofsGroupFork ProofsConcurrent ProofsCollision ProofsBatchForger ProofsCommit ProofsFinal ProofsGroupKey.
Open Scope Z_scope.

(** Asking a list of questions and keeping the digests. *)
Definition upd (h : bytes -> bytes) (m d : bytes) : bytes -> bytes := fun m' => if bytes_eqb m' m then d else h m'.
Fixpoint collect {A} (l : list bytes) (h : bytes -> bytes) (k : (bytes -> bytes) -> asker A) : asker A :=
  match l with [] => k h | m :: l => Ask m (fun d => collect l (upd h m d) k) end.
Lemma upd_agree g h m : (forall m', h m' = g m' -> upd h m (g m) m' = g m') /\ upd h m (g m) m = g m.
Proof.
  unfold upd. split; [|rewrite bytes_eqb_refl; reflexivity]. intros m' E. destruct (bytes_eqb m' m) eqn:X; [apply bytes_eqb_eq in X as ->; reflexivity | exact E].
Qed.
Lemma collect_spec {A} g (k : (bytes -> bytes) -> asker A) l : forall h, exists h', asked g (collect l h k) = l ++ asked g (k h') /\
  (forall m, h m = g m -> h' m = g m) /\ (forall m, In m l -> h' m = g m) /\ forall P : bytes -> Prop, (forall m, P (h m)) -> (forall m, P (g m)) -> forall m, P (h' m).
Proof.
  induction l as [|m l IH]; intro h; cbn [collect app asked].
  - exists h. split; [reflexivity|]. split; [auto|]. split; [intros m [] | auto].
  - destruct (IH (upd h m (g m))) as (h' & E1 & E2 & E3 & E4). destruct (upd_agree g h m) as [U1 U2]. exists h'. split; [rewrite E1; reflexivity|]. split; [intros m' E; apply E2, U1, E|]. split.
    + intros m' [<- | Hm]; [apply E2, U2 | apply E3, Hm].
    + intros P H1 H2. apply E4; [|exact H2]. intro m'. unfold upd. destruct (bytes_eqb m' m); [apply H2 | apply H1].
Qed.
Lemma collect_within {A} inputs digests (fin : A -> Prop) q (k : (bytes -> bytes) -> asker A) : (forall h, (forall m, In (h m) digests) -> asks_within inputs digests fin q (k h)) ->
  forall l h, (forall m, In m l -> In m inputs) -> (forall m, In (h m) digests) -> asks_within inputs digests fin (length l + q) (collect l h k).
Proof.
  intros K l. induction l as [|m l IH]; intros h Hl Hh; cbn [collect length Nat.add asks_within]; [apply K, Hh|].
  split; [apply Hl; left; reflexivity|]. intros d Hd. apply IH; [intros m' Hm; apply Hl; right; exact Hm|]. intro m'. unfold upd. destruct (bytes_eqb m' m); [exact Hd | apply Hh].
Qed.

Section GroupTap.
Context {Pr : prims} {Laws : prims_ok Pr} {Tags : tags_ok Pr}.
(** A context seen with the hash function of [Pr]. *)
Definition unhash {h} (P : point (with_hash Pr h)) : point Pr := @Point_ Pr (pval P) (p_fin P).
Definition uncontext {h} (c : key_agg_ctx (with_hash Pr h)) : key_agg_ctx Pr :=
  @KeyAggContext Pr (unhash (pubkey c)) (map unhash (ordered_pubkeys c)) (map (fun pi => (unhash (fst pi), snd pi)) (pubkey_indexes c)) (key_coefficients c) (effective_pubkeys c) (parity_acc c) (tweak_acc c).
Lemma rehash_unhash h (P : point (with_hash Pr h)) : rehash h (unhash P) = P.
Proof. destruct P. reflexivity. Qed.
Lemma recontext_uncontext h (c : key_agg_ctx (with_hash Pr h)) : recontext h (uncontext c) = c.
Proof.
  destruct c as [P os ix co ef pa tw]. unfold recontext, uncontext. cbn [pubkey ordered_pubkeys pubkey_indexes key_coefficients effective_pubkeys parity_acc tweak_acc]. rewrite rehash_unhash, !map_map. f_equal.
  - transitivity (map (fun x => x) os); [apply map_ext; intro; apply rehash_unhash | apply map_id].
  - transitivity (map (fun x => x) ix); [apply map_ext; intros [K i]; cbn [fst snd]; rewrite rehash_unhash; reflexivity | apply map_id].
Qed.
Definition tap_q (x root : bytes) : bytes := tag_twice "TapTweak" ++ x ++ root.
Lemma funded_out h (g : funded Pr) x : prims_ok (with_hash Pr h) -> funded_output h g = Some x ->
  exists z, agg_x h (fst g) = Some z /\ length z = 32%nat /\ @out_of Pr (tap_q z (snd g)) (h (tap_q z (snd g))) = Some x.
Proof.
  intros LI H. unfold funded_output in H. unfold agg_x. destruct (@key_agg_new (with_hash Pr h) _) as [c| |]; try discriminate H.
  exists (pt_x (pval (aggregated_pubkey c))). split; [reflexivity|]. split; [exact (x_len (Pr := Pr) _)|].
  apply (output_out h (uncontext c, snd g) x LI). unfold output_key. cbn [fst snd]. rewrite recontext_uncontext. exact H.
Qed.
(** The aggregated key depends on the digests of the list and the coefficients alone. *)
Lemma agg_x_agree h h' (LI : prims_ok (with_hash Pr h)) (LI' : prims_ok (with_hash Pr h')) l x : h' (list_input l) = h (list_input l) -> (forall K, In K l -> h' (coef_q h l K) = h (coef_q h l K)) -> agg_x h l = Some x -> agg_x h' l = Some x.
Proof.
  intros E1 E2 H. pose proof (agg_x_sum h LI l x H) as [O X]. unfold agg_x in H. destruct (@key_agg_new (with_hash Pr h) _) as [c| |] eqn:K0; try discriminate H.
  apply (@key_agg_new_Ok _ LI) in K0 as (D1 & D2 & _).
  assert (S : world_sum_of h' l = world_sum_of h l).
  { rewrite !sum_coefs. f_equal. apply map_ext_in. intros K IK. f_equal. unfold coef_v. destruct (is_second l K); [reflexivity|]. unfold coef_q at 1. rewrite E1. change (coefficient_input (h (list_input l)) K) with (coef_q h l K). rewrite (E2 K IK). reflexivity. }
  assert (SS : @agg_sum_of (with_hash Pr h') (map (rehash h') l) = world_sum_of h' l :> @pt Pr) by (unfold agg_sum_of, world_sum_of; rewrite map_map; reflexivity).
  unfold agg_x. rewrite (@key_agg_new_eq _ (map (rehash h') l)).
  - destruct (@not_inf (with_hash Pr h') (agg_sum_of (map (rehash h') l))) as [Q|] eqn:N.
    + apply (@not_inf_Some (with_hash Pr h')) in N. unfold aggregated_pubkey. cbn [pubkey]. f_equal. rewrite <- X, <- S, <- SS. apply (f_equal (@pt_x Pr)). symmetry. exact N.
    + exfalso. apply (@not_inf_None (with_hash Pr h') LI') in N. apply O. rewrite <- S, <- SS. exact N.
  - intro Z. apply D1. destruct l; [reflexivity | discriminate Z].
  - unfold zlen in *. rewrite map_length in *. exact D2.
Qed.
(** The program, followed by all questions about its groups. *)
Definition tap_ask (h : bytes -> bytes) (g : funded Pr) (k : asker unit) : asker unit := match agg_x h (fst g) with Some x => Ask (tap_q x (snd g)) (fun _ => k) | None => k end.
Definition ask_group {A} (l : list (point Pr)) (h : bytes -> bytes) (k : (bytes -> bytes) -> asker A) : asker A :=
  Ask (list_input l) (fun L => collect (map (coefficient_input L) l) (upd h (list_input l) L) k).
Definition ask_funded (d0 : bytes) (r : funded Pr * funded Pr) : asker unit :=
  ask_group (fst (fst r)) (fun _ => d0) (fun h => ask_group (fst (snd r)) h (fun h => tap_ask h (fst r) (tap_ask h (snd r) (Give tt)))).
Lemma ask_group_spec {A} g (k : (bytes -> bytes) -> asker A) l h : exists h' a, asked g (ask_group l h k) = a ++ asked g (k h') /\
  (forall m, h m = g m -> h' m = g m) /\ h' (list_input l) = g (list_input l) /\ (forall K, In K l -> h' (coef_q g l K) = g (coef_q g l K)) /\ forall P : bytes -> Prop, (forall m, P (h m)) -> (forall m, P (g m)) -> forall m, P (h' m).
Proof.
  unfold ask_group. cbn [asked]. destruct (collect_spec g k (map (coefficient_input (g (list_input l))) l) (upd h (list_input l) (g (list_input l)))) as (h' & E1 & E2 & E3 & E4). destruct (upd_agree g h (list_input l)) as [U1 U2].
  exists h', (list_input l :: map (coefficient_input (g (list_input l))) l). split; [rewrite E1; reflexivity|]. split; [intros m E; apply E2, U1, E|]. split; [apply E2, U2|]. split.
  - intros K IK. apply E3. apply in_map_iff. exists K. split; [reflexivity | exact IK].
  - intros P H1 H2. apply E4; [|exact H2]. intro m. unfold upd. destruct (bytes_eqb m (list_input l)); [apply H2 | apply H1].
Qed.
Lemma ask_group_within {A} inputs digests (fin : A -> Prop) u q l h (k : (bytes -> bytes) -> asker A) : list_covered inputs digests u l -> (forall m, In (h m) digests) -> (forall h, (forall m, In (h m) digests) -> asks_within inputs digests fin q (k h)) ->
  asks_within inputs digests fin (1 + (u + q)) (ask_group l h k).
Proof.
  intros (C1 & C2 & C3) Hh K. unfold ask_group. cbn [asks_within Nat.add]. split; [exact C2|]. intros L HL. apply (within_le _ _ _ (length (map (coefficient_input L) l) + q)); [rewrite map_length; lia|].
  apply collect_within; [exact K | intros m Hm; apply in_map_iff in Hm as (K' & <- & IK); apply C3; assumption|]. intro m. unfold upd. destruct (bytes_eqb m (list_input l)); [exact HL | apply Hh].
Qed.
Lemma ask_funded_within inputs digests u d0 r : In d0 digests -> funded_covered inputs digests u (fst r) -> funded_covered inputs digests u (snd r) -> asks_within inputs digests (fun _ => True) (2 * u + 4) (ask_funded d0 r).
Proof.
  intros Hd [C1 T1] [C2 T2]. replace (2 * u + 4)%nat with (1 + (u + (1 + (u + 2))))%nat by lia. unfold ask_funded. apply ask_group_within; [exact C1 | intros _; exact Hd|]. intros h Hh. apply ask_group_within; [exact C2 | exact Hh|]. intros h' Hh'.
  assert (T : forall g n k, (forall h x, (forall m, In (h m) digests) -> agg_x h (fst g) = Some x -> In (tap_q x (snd g)) inputs) -> asks_within inputs digests (fun _ => True) n k -> asks_within inputs digests (fun _ => True) (S n) (tap_ask h' g k)).
  { intros g n k Hg Hk. unfold tap_ask. destruct (agg_x h' (fst g)) as [x|] eqn:E; [|apply (within_le _ _ _ n); [lia | exact Hk]]. cbn [asks_within]. split; [apply (Hg h' x Hh' E)|]. intros; exact Hk. }
  apply T; [exact T1|]. apply T; [exact T2|]. exact I.
Qed.
Lemma ask_funded_asked inputs digests w d0 r x x' : (forall d, In d digests -> length d = 32%nat) -> In w (worlds inputs digests) -> In d0 digests ->
  agg_x (hash_in w) (fst (fst r)) = Some x -> agg_x (hash_in w) (fst (snd r)) = Some x' ->
  In (tap_q x (snd (fst r))) (asked (hash_in w) (ask_funded d0 r)) /\ In (tap_q x' (snd (snd r))) (asked (hash_in w) (ask_funded d0 r)).
Proof.
  destruct r as [[l m] [l' m']]. cbn [fst snd]. intros HS32 Hw Hd E E'. pose proof (hash_in_len inputs digests w HS32 Hw) as HL. pose proof (with_hash_ok _ HL) as LI. unfold ask_funded. cbn [fst snd].
  match goal with |- context [asked _ (ask_group ?l ?h ?k)] => destruct (ask_group_spec (hash_in w) k l h) as (h1 & a1 & A1 & B1 & C1 & D1 & P1) end. rewrite A1. cbv beta.
  match goal with |- context [asked _ (ask_group ?l ?h ?k)] => destruct (ask_group_spec (hash_in w) k l h) as (h2 & a2 & A2 & B2 & C2 & D2 & P2) end. rewrite A2. cbv beta.
  assert (H2 : forall m, length (h2 m) = 32%nat) by (apply (P2 (fun b => length b = 32%nat)); [apply (P1 (fun b => length b = 32%nat)); [intros _; apply HS32, Hd | exact HL] | exact HL]). pose proof (with_hash_ok _ H2) as LI2.
  assert (X : agg_x h2 l = Some x) by (apply (agg_x_agree (hash_in w) h2 LI LI2); [apply B2, C1 | intros K IK; apply B2, D1, IK | exact E]).
  assert (X' : agg_x h2 l' = Some x') by (apply (agg_x_agree (hash_in w) h2 LI LI2); [exact C2 | exact D2 | exact E']).
  unfold tap_ask. cbn [fst snd]. rewrite X, X'. cbn [asked]. split; apply in_app_iff; right; apply in_app_iff; right; [left; reflexivity | right; left; reflexivity].
Qed.
(** The lists alone. *)
Definition lists_of (F : asker (funded Pr * funded Pr)) : asker (list (point Pr) * list (point Pr)) := and_then F (fun r => Give (fst (fst r), fst (snd r))).
(** The roots or the aggregated keys differ. *)
Definition outputs_apart (F : asker (funded Pr * funded Pr)) (w : list (bytes * bytes)) : bool :=
  one_output F w && negb (one_group_key (lists_of F) w).
End GroupTap.

Section C105_output_commits_to_group.
Context {Pr : prims}.
Add Ring ring_C105_output_commits_to_group : (fe_ring_theory (n := @ord Pr)).
Lemma C105_output_commits_to_group_proof {Laws : prims_ok Pr} {Tags : tags_ok Pr} (F : asker (funded Pr * funded Pr)) (inputs digests : list bytes) (q u c : nat) (Hu : Z.of_nat u < n_) (HS : NoDup digests) (HS32 : forall d, In d digests -> length d = 32%nat) (Hc : forall d, In d digests -> (count (@same_residue Pr d) digests <= c)%nat) (HF : funded_within inputs digests q u F) :
  let N := length digests in let Q := (q + 2 * u + 2)%nat in
  (N * count (one_output F) (worlds inputs digests) <= ((Q + 2) * (Q + 1) + Q * (Q - 1) * (1 + c)) * N ^ length inputs)%nat.
Proof.
  cbv zeta. destruct digests as [|d0 ds] eqn:ED; [cbn [length Nat.mul]; apply Nat.le_0_l|]. rewrite <- ED in *. assert (Hd : In d0 digests) by (rewrite ED; left; reflexivity). clear ED ds.
  set (Q := (q + 2 * u + 2)%nat).
  assert (B1 : (length digests * count (one_group_key (lists_of F)) (worlds inputs digests) <= Q * (Q - 1) * (length digests ^ length inputs * (1 + c)))%nat).
  { replace (Q - 1)%nat with (q + 2 * u + 1)%nat by (unfold Q; lia). apply (C104_lists_one_key_proof (lists_of F) inputs digests q u c Hu HS HS32 Hc).
    unfold key_lists_within, lists_of. replace q with (q + 0)%nat by lia. apply (within_then _ _ _ _ q 0 F _ HF). intros r [[C1 _] [C2 _]]. cbn [asks_within fst snd]. split; assumption. }
  assert (B2 : (2 * (length digests * count (outputs_apart F) (worlds inputs digests)) <= (Q + 2) * (Q + 2 - 1) * (length (worlds inputs digests) * 2))%nat).
  { assert (HG : asks_within inputs digests (fun _ => True) (Q + 2) (and_then F (ask_funded d0))).
    { replace (Q + 2)%nat with (q + (2 * u + 4))%nat by (unfold Q; lia). apply (within_then _ _ _ _ q _ F _ HF). intros r [C1 C2]. apply ask_funded_within; assumption. }
    apply (rel_birthday (and_then F (ask_funded d0)) inputs digests (Q + 2) 2 (@same_out Pr) same_out_sym HS (fun y d y' => same_out_few digests y d y' HS) HG).
    intros w Hw H. pose proof (hash_in_len inputs digests w HS32 Hw) as HL. pose proof (with_hash_ok _ HL) as LI. unfold outputs_apart in H. apply andb_true_iff in H as [H NL]. apply negb_true_iff in NL.
    unfold one_group_key, lists_of in NL. cbv zeta in NL. rewrite outcome_then in NL. unfold one_output in H. cbv zeta in H.
    pose proof (ask_funded_asked inputs digests w d0 (outcome (hash_in w) F)) as AS. unfold qs. rewrite asked_then. destruct (outcome (hash_in w) F) as [g g']. cbn [outcome fst snd] in NL, AS.
    apply andb_true_iff in H as [D H]. apply negb_true_iff in D. destruct (funded_output (hash_in w) g) as [o|] eqn:O1; [|discriminate H]. destruct (funded_output (hash_in w) g') as [o'|] eqn:O2; [|discriminate H].
    apply (funded_out _ g o LI) in O1 as (z & Z1 & L1 & U1). apply (funded_out _ g' o' LI) in O2 as (z' & Z2 & L2 & U2). destruct (AS z z' HS32 Hw Hd Z1 Z2) as [A1 A2].
    exists (tap_q z (snd g)), (tap_q z' (snd g')). split; [apply in_app_iff; right; exact A1|]. split; [apply in_app_iff; right; exact A2|]. split.
    - intro X. unfold tap_q in X. apply app_inv_head in X. apply app_inj_len in X as [X1 X2]; [|congruence]. rewrite Z1, Z2, X1, bytes_eqb_refl, andb_true_r in NL. apply negb_false_iff in NL. rewrite NL, X2, bytes_eqb_refl in D. discriminate D.
    - unfold same_out. rewrite U1, U2. exact H. }
  assert (C : (count (one_output F) (worlds inputs digests) <= count (outputs_apart F) (worlds inputs digests) + count (one_group_key (lists_of F)) (worlds inputs digests))%nat).
  { apply count_or. intros w _ H. unfold outputs_apart. rewrite H. destruct (one_group_key (lists_of F) w); [right | left]; reflexivity. }
  rewrite length_worlds in B2. replace (Q + 2 - 1)%nat with (Q + 1)%nat in B2 by lia. apply (Nat.mul_le_mono_l _ _ (length digests)) in C. rewrite Nat.mul_add_distr_l in C.
  rewrite Nat.mul_add_distr_r. eapply Nat.le_trans; [exact C|]. apply Nat.add_le_mono; [|rewrite (Nat.mul_comm _ (1 + c)) in B1; rewrite <- Nat.mul_assoc; exact B1].
  assert (HALF : forall n a b, (2 * n <= a * (b * 2) -> n <= a * b)%nat) by (intros n a b H; rewrite (Nat.mul_assoc a b 2) in H; lia). apply HALF, B2.
Qed.
End C105_output_commits_to_group.
