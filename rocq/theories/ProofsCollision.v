(** Proofs of the theorems of PropertiesCollision.v. *)
From Coq Require Import String List.
From Verif Require Import Bytes BytesFacts Prims PrimsFacts TaggedHashes Errors SpecTags SpecBIP327
  KeyAgg Nonces Signature Signing SigAgg Bip340 SpecCtx SpecView SpecExtract SpecFork SpecCollision Toy ToyData ToyFork ToyCollision.
Import ListNotations.
Open Scope list_scope.
Open Scope Z_scope.
From Coq Require Import Lia Arith Bool.
From Verif Require Import CodecFacts KeyAggFacts SignatureFacts SigningFacts SpecFacts SpecSigning SessionFacts ProofsSoundness ProofsExtraction ForkFacts ProofsFork ProofsGroupFork ProofsSecondFork ProofsConcurrent.
Open Scope Z_scope.

Section Programs.
Context {Pr : prims}.
(** One program after the other. *)
Fixpoint and_then {A B} (F : asker A) (k : A -> asker B) : asker B :=
  match F with Give a => k a | Ask m f => Ask m (fun d => and_then (f d) k) end.
(** The program, with changed answers. *)
Fixpoint through {A} (t : bytes -> bytes -> bytes) (F : asker A) : asker A :=
  match F with Give a => Give a | Ask m f => Ask m (fun d => through t (f (t m d))) end.
Lemma asked_then {A B} h (F : asker A) (k : A -> asker B) : asked h (and_then F k) = asked h F ++ asked h (k (outcome h F)).
Proof. induction F as [a | m f IH]; [reflexivity|]. cbn [and_then asked outcome app]. rewrite IH. reflexivity. Qed.
Lemma outcome_through {A} h t (F : asker A) : outcome h (through t F) = outcome (fun x => t x (h x)) F.
Proof. induction F as [a | m f IH]; [reflexivity|]. cbn [through outcome]. apply IH. Qed.
Lemma outcome_ext {A} (F : asker A) h h' : (forall x, In x (asked h F) -> h' x = h x) -> outcome h' F = outcome h F.
Proof.
  induction F as [a | m f IH]; intro H; [reflexivity|]. cbn [asked outcome] in *. rewrite (H m (or_introl eq_refl)). apply IH.
  intros x Hx. apply H. right. exact Hx.
Qed.
Lemma within_le {A} inputs digests fin q q' (F : asker A) : (q <= q')%nat -> asks_within inputs digests fin q F -> asks_within inputs digests fin q' F.
Proof.
  revert q q'. induction F as [a | m f IH]; intros q q' L H; [exact H|]. cbn [asks_within] in *. destruct q as [|q]; [destruct H|].
  destruct q' as [|q']; [lia|]. destruct H as [H1 H2]. split; [exact H1|]. intros d Hd. apply (IH d q q'); [lia | apply H2, Hd].
Qed.
Lemma within_imp {A} inputs digests (fin fin' : A -> Prop) q (F : asker A) : (forall a, fin a -> fin' a) -> asks_within inputs digests fin q F -> asks_within inputs digests fin' q F.
Proof.
  intro I. revert q. induction F as [a | m f IH]; intros q H; [apply I, H|]. cbn [asks_within] in *. destruct q as [|q]; [destruct H|].
  destruct H as [H1 H2]. split; [exact H1|]. intros d Hd. apply IH, H2, Hd.
Qed.
Lemma within_then {A B} inputs digests (fin : A -> Prop) (fin' : B -> Prop) q q' (F : asker A) (k : A -> asker B) :
  asks_within inputs digests fin q F -> (forall a, fin a -> asks_within inputs digests fin' q' (k a)) -> asks_within inputs digests fin' (q + q') (and_then F k).
Proof.
  intros H K. revert q H. induction F as [a | m f IH]; intros q H; cbn [and_then asks_within] in *.
  - apply (within_le _ _ _ q'); [lia | apply K, H].
  - destruct q as [|q]; [destruct H|]. cbn [Nat.add]. destruct H as [H1 H2]. split; [exact H1|]. intros d Hd. apply IH, H2, Hd.
Qed.
Lemma within_through {A} inputs digests (fin : A -> Prop) q t (F : asker A) : (forall m d, In d digests -> In (t m d) digests) ->
  asks_within inputs digests fin q F -> asks_within inputs digests fin q (through t F).
Proof.
  intro T. revert q. induction F as [a | m f IH]; intros q H; [exact H|]. cbn [through asks_within] in *. destruct q as [|q]; [destruct H|].
  destruct H as [H1 H2]. split; [exact H1|]. intros d Hd. apply IH, H2, T, Hd.
Qed.

(** Two different questions of a program have digests with the same residue. *)
Section Birthday.
Context {A : Type} (F : asker A) (inputs digests : list bytes) (q c : nat) (HS : NoDup digests)
  (Hc : forall d, In d digests -> (count (same_residue d) digests <= c)%nat) (HF : asks_within inputs digests (fun _ => True) q F).
Let W := worlds inputs digests.
Let asks := qs F.
Definition pair_at (i1 i2 : nat) (w : list (bytes * bytes)) : bool :=
  match new_at asks i1 w, new_at asks i2 w with Some y, Some y' => same_residue (hash_in w y) (hash_in w y') | _, _ => false end.
Definition pairs : list (list (bytes * bytes) -> bool) := flat_map (fun i2 => map (fun i1 => pair_at i1 i2) (seq 0 i2)) (seq 0 q).
Lemma pair_rare i1 i2 : (i1 < i2)%nat -> (length digests * count (pair_at i1 i2) W <= length W * c)%nat.
Proof.
  intro Hi. apply (rare_place F inputs digests q _ HF i2 c _ HS Hc).
  - intros w Hw H. unfold pair_at in H. unfold has_new. fold asks. destruct (new_at asks i1 w); [|discriminate H]. destruct (new_at asks i2 w); [reflexivity | discriminate H].
  - intros u x d Hu Hx Hd E1 E2. unfold pair_at in E1, E2. fold asks in Hx. rewrite Hx in E1.
    destruct (new_at asks i1 u) as [y|] eqn:Y1; [|discriminate E1]. destruct (new_at asks i1 (put x d u)) as [y'|] eqn:Y2; [|discriminate E2].
    rewrite (new_at_put inputs digests asks (qs_in F inputs digests q _ HF) (qs_same F inputs digests) i2 u x d Hu Hd Hx) in E2.
    pose proof (two_at F u y i1 Y1) as P1. pose proof (two_at F _ y' i1 Y2) as P2. apply (two_place F inputs digests q _ HF u x d i2 Hu Hx Hd) in P2; [|lia].
    rewrite (place_inj _ _ _ _ P2 P1) in E2. rewrite (two_hash F u x d i2 Hx y i1 Hi P1), (two_hash_x F inputs digests q _ HF u x d i2 Hu Hx) in E2.
    unfold same_residue in *. apply Z.eqb_eq in E1, E2. apply Z.eqb_eq. congruence.
Qed.
Lemma length_pairs : (2 * length pairs = q * (q - 1))%nat.
Proof.
  unfold pairs. clear. induction q as [|k IH]; [reflexivity|]. rewrite seq_S, flat_map_app, app_length. cbn [flat_map Nat.add]. rewrite app_nil_r, map_length, seq_length.
  rewrite Nat.mul_add_distr_l, IH. destruct k as [|k]; [reflexivity|]. rewrite !Nat.sub_succ, !Nat.sub_0_r. lia.
Qed.
Lemma pair_found w y y' : In w W -> In y (asks w) -> In y' (asks w) -> y <> y' -> hash_in w y = hash_in w y' -> exists g, In g pairs /\ g w = true.
Proof.
  intros Hw.
  assert (G : forall y y' k k', place y (asks w) = Some k -> place y' (asks w) = Some k' -> (k < k')%nat -> hash_in w y = hash_in w y' -> exists g, In g pairs /\ g w = true).
  { intros a a' k k' P P' L E. exists (pair_at k k'). pose proof (place_lt _ _ _ P') as B. pose proof (proj2 (qs_facts F inputs digests q _ HF w Hw)) as Q. fold asks in Q.
    split.
    - apply in_flat_map. exists k'. split; [apply in_seq; lia|]. apply in_map_iff. exists k. split; [reflexivity | apply in_seq; lia].
    - unfold pair_at. apply place_spec in P, P'. rewrite (proj2 (new_at_spec asks k w a) P), (proj2 (new_at_spec asks k' w a') P'), E. apply Z.eqb_refl. }
  intros I I' N E. destruct (place_some _ _ I) as [k P], (place_some _ _ I') as [k' P'].
  destruct (Nat.lt_trichotomy k k') as [L | [-> | L]]; [apply (G y y' k k'); assumption | exfalso; apply N, (place_inj _ _ _ _ P P') | apply (G y' y k' k); [assumption | assumption | assumption | symmetry; exact E]].
Qed.
Lemma birthday (bad : list (bytes * bytes) -> bool) :
  (forall w, In w W -> bad w = true -> exists y y', In y (asks w) /\ In y' (asks w) /\ y <> y' /\ hash_in w y = hash_in w y') ->
  (2 * (length digests * count bad W) <= q * (q - 1) * (length W * c))%nat.
Proof.
  intro H. rewrite <- length_pairs, <- Nat.mul_assoc. apply Nat.mul_le_mono_l. apply union_bound.
  - intros w Hw B. destruct (H w Hw B) as (y & y' & I & I' & N & E). apply (pair_found w y y'); assumption.
  - intros g Hg. unfold pairs in Hg. apply in_flat_map in Hg as (i2 & _ & Hg). apply in_map_iff in Hg as (i1 & <- & I1). apply in_seq in I1. apply pair_rare. lia.
Qed.
End Birthday.
End Programs.

Section Lists.
Context {Pr : prims} {Laws : prims_ok Pr}.
Lemma same_keys_iff (l l' : list (point Pr)) : same_keys l l' = true <-> l = l'.
Proof.
  revert l'. induction l as [|K l IH]; intros [|K' l']; cbn [same_keys]; try (split; [discriminate | intro H; discriminate H]); [split; reflexivity|].
  rewrite andb_true_iff, same_iff, IH. split; [intros [-> ->]; reflexivity | intro H; injection H as -> ->; split; reflexivity].
Qed.
Lemma list_input_inj (l l' : list (point Pr)) : list_input l = list_input l' -> l = l'.
Proof.
  unfold list_input. intro H. apply app_inv_head in H. revert l' H. induction l as [|K l IH]; intros [|K' l'] H; cbn [map concat] in H; rewrite ?cbytes_ser in H.
  - reflexivity.
  - apply (f_equal (@length _)) in H. rewrite app_length, ser_point_len in H. discriminate H.
  - apply (f_equal (@length _)) in H. rewrite app_length, ser_point_len in H. discriminate H.
  - apply app_inj_len in H as [H1 H2]; [|now rewrite !ser_point_len]. apply ser_point_inj in H1 as ->. f_equal. apply IH, H2.
Qed.

(** The program, its list, the program with changed answers, and its list. *)
Definition both (t : bytes -> bytes -> bytes -> bytes) (F : asker (group_forgery Pr)) : asker unit :=
  and_then F (fun g => Ask (list_input (g_keys g)) (fun L => and_then (through (t L) F) (fun g' => Ask (list_input (g_keys g')) (fun _ => Give tt)))).
Section Both.
Context (inputs digests : list bytes) (q c : nat) (F : asker (group_forgery Pr)) (HS : NoDup digests)
  (Hc : forall d, In d digests -> (count (same_residue d) digests <= c)%nat) (HF : lists_within inputs digests q F)
  (t : bytes -> bytes -> bytes -> bytes) (Ht : forall L m d, In d digests -> In (t L m d) digests).
Lemma both_within : asks_within inputs digests (fun _ => True) (2 * q + 2) (both t F).
Proof.
  replace (2 * q + 2)%nat with (q + (1 + (q + 1)))%nat by lia. unfold both. apply (within_then inputs digests _ _ q _ F _ HF). intros g Hg.
  cbn [Nat.add asks_within]. split; [exact Hg|]. intros L _. apply (within_then inputs digests (fun g => In (list_input (g_keys g)) inputs)).
  - apply within_through; [apply Ht | exact HF].
  - intros g' Hg'. cbn [asks_within]. split; [exact Hg' | intros _ _; exact I].
Qed.
(** How often the two lists differ and have the same digest. *)
Lemma both_rare (w' : list (bytes * bytes) -> list (bytes * bytes)) (bad : list (bytes * bytes) -> bool) :
  (forall w, In w (worlds inputs digests) -> bad w = true -> In (w' w) (worlds inputs digests) /\
     (forall x, In x inputs -> hash_in (w' w) x = t (hash_in w (list_input (ends_with F w))) x (hash_in w x)) /\
     ends_with F w <> ends_with F (w' w) /\ hash_in w (list_input (ends_with F w)) = hash_in w (list_input (ends_with F (w' w)))) ->
  (length digests * count bad (worlds inputs digests) <= (q + 1) * (2 * q + 1) * (length (worlds inputs digests) * c))%nat.
Proof.
  intro H. pose proof (birthday (both t F) inputs digests (2 * q + 2) c HS Hc both_within bad) as B.
  assert (G : (2 * (length digests * count bad (worlds inputs digests)) <= (2 * q + 2) * (2 * q + 2 - 1) * (length (worlds inputs digests) * c))%nat).
  { apply B. intros w Hw Hb. destruct (H w Hw Hb) as (Hw' & Hh & N & E).
    exists (list_input (ends_with F w)), (list_input (ends_with F (w' w))).
    assert (O : outcome (hash_in w) (through (t (hash_in w (list_input (ends_with F w)))) F) = outcome (hash_in (w' w)) F).
    { rewrite outcome_through. apply outcome_ext. intros x Hx. symmetry. apply Hh. apply (qs_in F inputs digests q _ HF (w' w) x Hw'). exact Hx. }
    split; [|split; [|split; [intro X; apply N, list_input_inj, X | exact E]]]; unfold qs, both; rewrite asked_then; apply in_app_iff; right; cbn [asked].
    - left. reflexivity.
    - right. rewrite asked_then. apply in_app_iff. right. fold (ends_with F w). rewrite O. left. reflexivity. }
  clear - G. revert G. generalize (length digests * count bad (worlds inputs digests))%nat as a, (length (worlds inputs digests) * c)%nat as b. intros a b G.
  replace ((2 * q + 2) * (2 * q + 2 - 1))%nat with (2 * ((q + 1) * (2 * q + 1)))%nat in G by (replace (2 * q + 2 - 1)%nat with (2 * q + 1)%nat by lia; ring).
  rewrite <- Nat.mul_assoc in G. lia.
Qed.
End Both.
(** Counting over triples, world by world or by the other two. *)
Lemma count_triples {A B C} (f : A * B * C -> bool) (lA : list A) (lB : list B) (lC : list C) (k b : nat) :
  (forall x y, In x lB -> In y lC -> (k * count (fun a => f (a, x, y)) lA <= b)%nat) ->
  (k * count f (list_prod (list_prod lA lB) lC) <= length lB * length lC * b)%nat.
Proof.
  intro H.
  assert (E : count f (list_prod (list_prod lA lB) lC) = sum_over (fun x => sum_over (fun y => count (fun a => f (a, x, y)) lA) lC) lB).
  { rewrite count_sum, sum_prod. rewrite (sum_prod (fun ax => sum_over (fun y => ind (f (ax, y))) lC)).
    rewrite (sum_swap (fun a x => sum_over (fun y => ind (f (a, x, y))) lC)). apply sum_ext. intros x _.
    rewrite (sum_swap (fun a y => ind (f (a, x, y)))). apply sum_ext. intros y _. symmetry. apply count_sum. }
  rewrite E, <- sum_scale, <- Nat.mul_assoc, <- (sum_const (length lC * b) lB). apply sum_le. intros x Hx.
  rewrite <- sum_scale, <- (sum_const b lC). apply sum_le. intros y Hy. apply H; assumption.
Qed.
Lemma count_split {A} (f g : A -> bool) l : count f l = (count (fun x => f x && g x) l + count (fun x => f x && negb (g x)) l)%nat.
Proof. rewrite !count_sum, <- sum_add. apply sum_ext. intros x _. destruct (f x), (g x); reflexivity. Qed.
End Lists.

Section C95_lists_agree.
Context {Pr : prims}.
Add Ring ring_C95_lists_agree : (fe_ring_theory (n := @ord Pr)).
Lemma C95_lists_agree_proof {Laws : prims_ok Pr} {Tags : tags_ok Pr} (P : point Pr) (F : asker (group_forgery Pr)) (inputs digests : list bytes) (q c : nat) (HS : NoDup digests) (HS32 : forall d, In d digests -> length d = 32%nat) (Hc : forall d, In d digests -> (count (same_residue d) digests <= c)%nat) (HF : lists_within inputs digests q F) :
  let W := worlds inputs digests in
  let N := length digests in
  let triples := list_prod (list_prod W digests) digests in
  let C := count (fun wda => group_forks_twice P F (fst (fst wda)) (snd (fst wda)) (snd wda)) triples in
  let S := count (fun wda => forks_alike P F (fst (fst wda)) (snd (fst wda)) (snd wda)) triples in
  (N * C <= N * S + (q + 1) * (2 * q + 1) * (N ^ (length inputs + 2) * c))%nat /\
  (forall w d a, In w W -> In d digests -> In a digests -> forks_alike P F w d a = true ->
   let m := coefficient_of P F w in
   let w' := put m a w in
   let weight := fork_D F w d * fork_D F w' d * (copies P (ends_with F w) * (int_from_bytes (hash_in w m) - int_from_bytes a)) in
   let r := fork_D F w' d * fork_Y F w d - fork_D F w d * fork_Y F w' d in
   copies P (ends_with F w) mod n_ <> 0 -> weight mod n_ <> 0 /\ forall x, (weight * x) mod n_ = r mod n_ <-> point_mul pt_G x = pval P).
Proof.
  cbv zeta. assert (HF' : asks_within inputs digests (fun _ => True) q F) by (apply (within_imp _ _ _ _ q F (fun _ _ => I) HF)).
  split.
  - set (W := worlds inputs digests). set (tr := list_prod (list_prod W digests) digests).
    rewrite (count_split _ (fun wda => same_keys (ends_with F (fst (fst wda))) (ends_with F (put (coefficient_of P F (fst (fst wda))) (snd wda) (fst (fst wda))))) tr).
    rewrite Nat.mul_add_distr_l. apply Nat.add_le_mono; [apply Nat.le_refl|].
    replace (length digests ^ (length inputs + 2))%nat with (length digests * length digests * length W)%nat
      by (unfold W; rewrite length_worlds, Nat.pow_add_r; cbn [Nat.pow]; rewrite Nat.mul_1_r; ring).
    replace ((q + 1) * (2 * q + 1) * (length digests * length digests * length W * c))%nat
      with (length digests * length digests * ((q + 1) * (2 * q + 1) * (length W * c)))%nat by ring.
    apply count_triples. intros d a Hd Ha. cbn [fst snd].
    set (t := fun L x e : bytes => if bytes_eqb x (coefficient_input L P) then a else e).
    assert (Ht : forall L m e, In e digests -> In (t L m e) digests) by (intros L m e He; unfold t; destruct (bytes_eqb m (coefficient_input L P)); assumption).
    apply (both_rare inputs digests q c F HS Hc HF t Ht (fun w => put (coefficient_of P F w) a w)).
    intros w Hw Hb. apply andb_true_iff in Hb as [Hf Hk]. apply negb_true_iff in Hk.
    split; [apply put_in; assumption|]. split; [|split].
    + intros x Hx. unfold t. change (coefficient_input (hash_in w (list_input (ends_with F w))) P) with (coefficient_of P F w).
      destruct (bytes_eqb x (coefficient_of P F w)) eqn:E.
      * apply bytes_eqb_eq in E as ->. apply (hash_in_put_same inputs digests); assumption.
      * apply hash_in_put_other. intros ->. rewrite bytes_eqb_refl in E. discriminate E.
    + intro X. rewrite (proj2 (same_keys_iff _ _) X) in Hk. discriminate Hk.
    + exact (proj1 (C87_double_fork_gives_secret_proof P F inputs digests q w d a HS32 HF' Hw Hd Ha Hf)).
  - intros w d a Hw Hd Ha H. apply andb_true_iff in H as [Hf Hk]. apply same_keys_iff in Hk.
    exact (proj2 (C87_double_fork_gives_secret_proof P F inputs digests q w d a HS32 HF' Hw Hd Ha Hf) Hk).
Qed.
End C95_lists_agree.

Section C95_second_lists_agree.
Context {Pr : prims}.
Add Ring ring_C95_second_lists_agree : (fe_ring_theory (n := @ord Pr)).
Lemma C95_second_lists_agree_proof {Laws : prims_ok Pr} {Tags : tags_ok Pr} (P : point Pr) (F : asker (group_forgery Pr)) (inputs : list bytes) (q : nat) (HF : lists_within inputs residues q F) :
  let W := worlds inputs residues in
  let N := Z.to_nat n_ in
  let triples := list_prod (list_prod W residues) factors in
  let C := count (fun wdg => second_forks_twice P F (fst (fst wdg)) (snd (fst wdg)) (snd wdg)) triples in
  let S := count (fun wdg => second_forks_alike P F (fst (fst wdg)) (snd (fst wdg)) (snd wdg)) triples in
  (N * C <= N * S + (q + 1) * (2 * q + 1) * (N ^ (length inputs + 1) * (N - 1)))%nat /\
  (forall w d g, In w W -> In d residues -> In g factors -> second_forks_alike P F w d g = true ->
   let w' := scale (list_digest F w) g w in
   let weight := fork_D F w d * fork_D F w' d * (copies P (ends_with F w) * (g - 1)) in
   let r := g * (fork_D F w' d * fork_Y F w d) - fork_D F w d * fork_Y F w' d in
   copies P (ends_with F w) mod n_ <> 0 -> weight mod n_ <> 0 /\ forall x, (weight * x) mod n_ = r mod n_ <-> point_mul pt_G x = pval P).
Proof.
  cbv zeta. assert (HF' : asks_within inputs residues (fun _ => True) q F) by (apply (within_imp _ _ _ _ q F (fun _ _ => I) HF)).
  split.
  - rewrite <- !length_residues. set (W := worlds inputs residues). set (tr := list_prod (list_prod W residues) factors).
    rewrite (count_split _ (fun wdg => same_keys (ends_with F (fst (fst wdg))) (ends_with F (scale (list_digest F (fst (fst wdg))) (snd wdg) (fst (fst wdg))))) tr).
    rewrite Nat.mul_add_distr_l. apply Nat.add_le_mono; [apply Nat.le_refl|].
    assert (LF : length factors = (length residues - 1)%nat) by (unfold factors; rewrite map_length, seq_length, length_residues; reflexivity).
    replace (length residues ^ (length inputs + 1) * (length residues - 1))%nat with (length residues * length factors * (length W * 1))%nat
      by (unfold W; rewrite LF, length_worlds, Nat.pow_add_r, Nat.pow_1_r; ring).
    replace ((q + 1) * (2 * q + 1) * (length residues * length factors * (length W * 1)))%nat
      with (length residues * length factors * ((q + 1) * (2 * q + 1) * (length W * 1)))%nat by ring.
    apply count_triples. intros d g Hd Hg. cbn [fst snd].
    set (t := fun L x e : bytes => if is_coefficient L x then be_enc 32 ((g * be_dec e) mod n_) else e).
    assert (Ht : forall L m e, In e residues -> In (t L m e) residues) by (intros L m e He; unfold t; destruct (is_coefficient L m); [apply scaled_residue; assumption | assumption]).
    apply (both_rare inputs residues q 1 F nodup_residues residues_one HF t Ht (fun w => scale (list_digest F w) g w)).
    intros w Hw Hb. apply andb_true_iff in Hb as [Hf Hk]. apply negb_true_iff in Hk.
    split; [apply scale_in; assumption|]. split; [|split].
    + intros x Hx. unfold t. change (hash_in w (list_input (ends_with F w))) with (list_digest F w).
      destruct (is_coefficient (list_digest F w) x) eqn:E; [apply (hash_scale_same inputs); assumption | apply hash_scale_other, E].
    + intro X. rewrite (proj2 (same_keys_iff _ _) X) in Hk. discriminate Hk.
    + exact (proj1 (C88_second_fork_gives_secret_proof P F inputs q w d g HF' Hw Hd Hg Hf)).
  - intros w d g Hw Hd Hg H. apply andb_true_iff in H as [Hf Hk]. apply same_keys_iff in Hk.
    exact (proj2 (C88_second_fork_gives_secret_proof P F inputs q w d g HF' Hw Hd Hg Hf) Hk).
Qed.
End C95_second_lists_agree.
