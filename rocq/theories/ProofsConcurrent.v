(** Proofs of the theorems of PropertiesConcurrent.v. *)
From Coq Require Import String List.
From Verif Require Import Bytes BytesFacts Prims PrimsFacts TaggedHashes Errors SpecTags SpecBIP327
  KeyAgg Nonces Signature Signing SigAgg Bip340 SpecCtx SpecView SpecSession SpecExtract SpecReuse SpecAlgebra SpecFork SpecConcurrent Toy ToyData ToyReuse ToyAlgebra ToyFork ToyConcurrent.
Import ListNotations.
Open Scope list_scope.
Open Scope Z_scope.
From Coq Require Import Lia Arith Bool Znumtheory.
From Verif Require Import CodecFacts KeyAggFacts SignatureFacts SigningFacts SpecFacts SpecSigning SessionFacts ProofsSoundness ProofsExtraction ProofsAlgebra ForkFacts.
Open Scope Z_scope.

Section Rare.
Open Scope nat_scope.
(** What happens for few values of a coordinate, whatever the others are, happens rarely. *)
Lemma rare_one {A B} (V : list A) (S : list B) (set : A -> B -> A) (get : A -> B) (ok : A -> bool) (c : nat) :
  NoDup V -> NoDup S -> (forall a b, In a V -> In b S -> In (set a b) V) -> (forall a, In a V -> In (get a) S) ->
  (forall a, In a V -> set a (get a) = a) -> (forall a b, In a V -> In b S -> get (set a b) = b) ->
  (forall a b b', In a V -> In b S -> In b' S -> set (set a b) b' = set a b') ->
  (forall a, In a V -> count (fun b => ok (set a b)) S <= c) -> length S * count ok V <= length V * c.
Proof.
  intros NV NS set_in get_in set_get get_set set_set H.
  set (g := fun a => sum_over (fun b => ind (ok (set a b))) S).
  set (t := fun ab : A * B => (set (fst ab) (snd ab), get (fst ab))).
  assert (E1 : sum_over g V = length S * count ok V).
  { transitivity (sum_over (fun ab => ind (ok (fst (t ab)))) (list_prod V S)); [rewrite sum_prod; reflexivity|].
    rewrite (sum_involution t (fun ab => ind (ok (fst ab)))).
    - rewrite sum_prod. cbn [fst]. rewrite count_sum, <- sum_scale. apply sum_ext. intros a _. apply sum_const.
    - apply nodup_prod; assumption.
    - intros [a b] Hab; apply in_prod_iff in Hab as [Ha Hb]; unfold t; cbn [fst snd]. apply in_prod_iff. auto.
    - intros [a b] Hab; apply in_prod_iff in Hab as [Ha Hb]; unfold t; cbn [fst snd]. rewrite set_set, set_get, get_set; auto. }
  rewrite <- E1, <- (sum_const c V). apply sum_le. intros a Ha. unfold g. rewrite <- count_sum. apply H, Ha.
Qed.
Lemma count_le {A} (f g : A -> bool) l : (forall x, In x l -> f x = true -> g x = true) -> count f l <= count g l.
Proof.
  intro H. rewrite !count_sum. apply sum_le. intros x Hx. specialize (H x Hx). destruct (f x); [rewrite H by reflexivity; apply le_n | cbn [ind]; lia].
Qed.
Lemma count_none {A} (f : A -> bool) l : (forall x, In x l -> f x = false) -> count f l = 0.
Proof. intro H. rewrite count_sum, (sum_ext _ (fun _ => 0)); [rewrite sum_const; lia|]. intros x Hx. rewrite H by exact Hx. reflexivity. Qed.
Lemma count_filter {A} (f g : A -> bool) l : (forall x, In x l -> f x = true -> g x = true) -> count f l = count f (filter g l).
Proof.
  induction l as [|x l IH]; intro H; [reflexivity|]. unfold count in *. cbn [filter]. pose proof (H x (or_introl eq_refl)) as Hx.
  assert (IH' := IH (fun y Hy => H y (or_intror Hy))). destruct (g x); cbn [filter]; destruct (f x); cbn [length]; try lia.
Qed.
Lemma union_bound {A} (W : list A) (f : A -> bool) (ev : list (A -> bool)) (N b : nat) :
  (forall w, In w W -> f w = true -> exists g, In g ev /\ g w = true) -> (forall g, In g ev -> N * count g W <= b) ->
  N * count f W <= length ev * b.
Proof.
  intros H1 H2. assert (U : count f W <= sum_over (fun g => count g W) ev).
  { transitivity (sum_over (fun w => sum_over (fun g : A -> bool => ind (g w)) ev) W).
    - rewrite count_sum. apply sum_le. intros w Hw. destruct (f w) eqn:E; [|cbn [ind]; lia].
      destruct (H1 w Hw E) as (g & Hg & Eg). clear - Hg Eg. induction ev as [|g' ev IH]; [destruct Hg|]. rewrite sum_cons.
      destruct Hg as [-> | Hg]; [rewrite Eg; cbn [ind]; lia | specialize (IH Hg); lia].
    - rewrite sum_swap. apply sum_le. intros g _. rewrite count_sum. apply le_n. }
  transitivity (N * sum_over (fun g => count g W) ev); [apply Nat.mul_le_mono_l, U|].
  rewrite <- sum_scale, Nat.mul_comm, <- (Nat.mul_comm (length ev)), <- (sum_const b ev). apply sum_le. intros g Hg. apply H2, Hg.
Qed.
End Rare.

Section View.
Context {Pr : prims} {A : Type} (F : asker A) (inputs digests : list bytes) (q : nat) (fin : A -> Prop) (HF : asks_within inputs digests fin q F).
Definition qs (w : list (bytes * bytes)) : list bytes := asked (hash_in w) F.

Lemma qs_facts w : In w (worlds inputs digests) -> (forall m, In m (qs w) -> In m inputs) /\ (length (qs w) <= q)%nat.
Proof.
  intro Hw. destruct (asked_within _ _ _ q F (hash_in w) HF) as (I1 & I2 & _).
  { intros m Hm. apply hash_in_in with (M := inputs); assumption. }
  split; assumption.
Qed.
Lemma qs_same w m d i : In w (worlds inputs digests) -> In m inputs -> In d digests -> ~ In m (firstn i (qs w)) ->
  firstn (S i) (qs (put m d w)) = firstn (S i) (qs w).
Proof.
  intros Hw Hm Hd H. unfold qs in *.
  pose proof (asked_same F (hash_in w) (hash_in (put m d w)) m (fun _ => []) (fun _ => []) i) as E. rewrite !app_nil_r in E. apply E; [|reflexivity | exact H].
  intros x Hx. apply hash_in_put_other, Hx.
Qed.
Lemma qs_in w m : In w (worlds inputs digests) -> In m (qs w) -> In m inputs.
Proof. intro Hw. apply (proj1 (qs_facts w Hw)). Qed.

(** An event that fixes the residue of the digest of the question at a place, whatever the other digests are. *)
Lemma rare_place (p c : nat) (E : list (bytes * bytes) -> bool) : NoDup digests -> (forall d, In d digests -> (count (same_residue d) digests <= c)%nat) ->
  (forall w, In w (worlds inputs digests) -> E w = true -> has_new qs p w = true) ->
  (forall u x d, In u (worlds inputs digests) -> new_at qs p u = Some x -> In d digests -> E u = true -> E (put x d u) = true -> same_residue (hash_in u x) d = true) ->
  (length digests * count E (worlds inputs digests) <= length (worlds inputs digests) * c)%nat.
Proof.
  intros HS Hc Hnew Hres. set (W := worlds inputs digests) in *.
  rewrite (count_filter E (has_new qs p) W Hnew). set (V := filter (has_new qs p) W).
  transitivity (length V * c)%nat; [|apply Nat.mul_le_mono_r; unfold V; clear; induction W as [|w W IH]; cbn [filter length]; [lia | destruct (has_new qs p w); cbn [length]; lia]].
  assert (IV : forall w, In w V <-> In w W /\ has_new qs p w = true) by (intro w; apply filter_In).
  apply (rare_one V digests (redraw qs p) (drawn qs p)).
  - apply NoDup_filter, nodup_worlds, HS.
  - exact HS.
  - intros w d Hw Hd. apply IV in Hw as [Hw Hn]. apply IV. apply (redraw_in inputs digests qs qs_in qs_same); assumption.
  - intros w Hw. apply IV in Hw as [Hw Hn]. apply (drawn_in inputs digests qs qs_in); assumption.
  - intros w Hw. apply IV in Hw as [Hw Hn]. apply (redraw_drawn inputs digests qs qs_in); assumption.
  - intros w d Hw Hd. apply IV in Hw as [Hw Hn]. apply (drawn_redraw inputs digests qs qs_in qs_same); assumption.
  - intros w d d' Hw Hd Hd'. apply IV in Hw as [Hw Hn]. apply (redraw_redraw inputs digests qs qs_in qs_same); assumption.
  - intros w Hw. apply IV in Hw as [Hw Hn].
    destruct (existsb (fun d => E (redraw qs p w d)) digests) eqn:X.
    + apply existsb_exists in X as (d & Hd & X). eapply Nat.le_trans; [|apply (Hc d Hd)]. apply count_le. intros d' Hd' X'.
      destruct (has_new_some qs p w Hn) as [x Hx]. unfold redraw in X, X'. rewrite Hx in X, X'.
      assert (Hi : In x inputs) by (apply (new_at_in inputs digests qs qs_in p w x Hw Hx)).
      specialize (Hres (put x d w) x d'). rewrite put_put in Hres. rewrite (hash_in_put_same inputs digests) in Hres by assumption.
      apply Hres; [apply put_in; assumption | apply (new_at_put inputs digests qs qs_in qs_same); assumption | assumption | assumption | assumption].
    + rewrite count_none; [lia|]. intros d Hd. destruct (E (redraw qs p w d)) eqn:Y; [|reflexivity].
      rewrite <- X. symmetry. apply existsb_exists. exists d. split; assumption.
Qed.

Lemma place_prefix m l l' i : firstn (S i) l = firstn (S i) l' -> place m l = Some i -> place m l' = Some i.
Proof.
  revert l l'. induction i as [|i IH]; intros l l' E H.
  - destruct l as [|a l]; [discriminate H|]. destruct l' as [|a' l']; [discriminate E|]. cbn [firstn] in E. injection E as <-.
    cbn [place] in *. destruct (bytes_eqb m a); [reflexivity|]. destruct (place m l); discriminate H.
  - destruct l as [|a l]; [discriminate H|]. destruct l' as [|a' l']; [discriminate E|]. rewrite !firstn_cons in E. injection E as <- E.
    cbn [place] in *. destruct (bytes_eqb m a); [discriminate H|]. destruct (place m l) as [k|] eqn:P; [|discriminate H]. injection H as ->.
    rewrite (IH l l' E P). reflexivity.
Qed.
Lemma firstn_le {B} (l l' : list B) i p : (i <= p)%nat -> firstn (S p) l = firstn (S p) l' -> firstn (S i) l = firstn (S i) l'.
Proof. intros H E. rewrite <- (Nat.min_l (S i) (S p)) by lia. rewrite <- !firstn_firstn, E. reflexivity. Qed.
Lemma until_same (G : asker A) (h h' : bytes -> bytes) m i : place m (asked h G) = Some i -> (forall x, In x (firstn i (asked h G)) -> h' x = h x) ->
  until h' m G = until h m G.
Proof.
  revert i. induction G as [a | x k IH]; intros i H E; [reflexivity|]. cbn [asked place until] in *.
  destruct (bytes_eqb m x) eqn:X.
  - apply bytes_eqb_eq in X as ->. rewrite bytes_eqb_refl. reflexivity.
  - assert (X' : bytes_eqb x m = false) by (destruct (bytes_eqb x m) eqn:Y; [apply bytes_eqb_eq in Y as ->; rewrite bytes_eqb_refl in X; discriminate | reflexivity]).
    rewrite X'. destruct (place m (asked h (k (h x)))) as [j|] eqn:P; [|discriminate H]. injection H as <-. rewrite firstn_cons in E.
    rewrite (E x (or_introl eq_refl)). f_equal. apply (IH (h x) j P). intros y Hy. apply E. right. exact Hy.
Qed.

Lemma place_at (x : bytes) l k : nth_error l k = Some x -> ~ In x (firstn k l) -> place x l = Some k.
Proof.
  revert k. induction l as [|a l IH]; intros k H1 H2; [destruct k; discriminate H1|].
  destruct k as [|k]; cbn [nth_error place] in *; [injection H1 as ->; rewrite bytes_eqb_refl; reflexivity|].
  rewrite firstn_cons in H2. destruct (bytes_eqb x a) eqn:E; [apply bytes_eqb_eq in E as ->; exfalso; apply H2; left; reflexivity|].
  rewrite (IH k H1); [reflexivity | intro F1; apply H2; right; exact F1].
Qed.
Lemma in_firstn_le {B} (z : B) l k p : (k <= p)%nat -> In z (firstn k l) -> In z (firstn p l).
Proof.
  revert l p. induction k as [|k IH]; intros l p Hk; [intros []|]. destruct p as [|p]; [lia|]. destruct l as [|a l]; [intros []|]. rewrite !firstn_cons.
  intros [-> | H]; [left; reflexivity | right; apply IH; [lia | exact H]].
Qed.

(** Two worlds that differ in the digest of the question at place [p]. *)
Section Two.
Context (u : list (bytes * bytes)) (x d : bytes) (p : nat) (Hu : In u (worlds inputs digests)) (Hx : new_at qs p u = Some x) (Hd : In d digests).
Let u' := put x d u.
Lemma two_first : firstn (S p) (qs u') = firstn (S p) (qs u).
Proof.
  apply qs_same; [exact Hu | apply (new_at_in inputs digests qs qs_in p u x Hu Hx) | exact Hd | apply (proj1 (new_at_spec qs p u x) Hx)].
Qed.
Lemma two_place y k : (k <= p)%nat -> place y (qs u') = Some k <-> place y (qs u) = Some k.
Proof. intro H. pose proof (firstn_le _ _ k p H two_first) as E. split; apply place_prefix; [exact E | symmetry; exact E]. Qed.
Lemma two_at : place x (qs u) = Some p.
Proof. apply new_at_spec in Hx as [H1 H2]. apply place_at; assumption. Qed.
Lemma two_hash y k : (k < p)%nat -> place y (qs u) = Some k -> hash_in u' y = hash_in u y.
Proof. intros Hk H. apply hash_in_put_other. intros ->. rewrite two_at in H. injection H as ->. lia. Qed.
Lemma two_hash_x : hash_in u' x = d.
Proof. apply (hash_in_put_same inputs digests); [exact Hu | apply (new_at_in inputs digests qs qs_in p u x Hu Hx)]. Qed.
Lemma two_until y k : (k <= p)%nat -> place y (qs u) = Some k -> until (hash_in u') y F = until (hash_in u) y F.
Proof.
  intros Hk H. apply (until_same F (hash_in u) (hash_in u') y k H). intros z Hz. apply hash_in_put_other. intros ->.
  apply new_at_spec in Hx as [_ H2]. apply H2. apply (in_firstn_le x _ k p Hk Hz).
Qed.
Lemma place_inj y z k l : place y l = Some k -> place z l = Some k -> y = z.
Proof. intros H1 H2. apply place_spec in H1 as [H1 _], H2 as [H2 _]. congruence. Qed.
End Two.
End View.

Section Numbers.
Context {Pr : prims} {Laws : prims_ok Pr}.
(** r * c = r * c' modulo the order. *)
Lemma cancel_mod (r c c' y : Z) : (y - r * c) mod n_ = 0 -> (y - r * c') mod n_ = 0 -> r mod n_ <> 0 -> c mod n_ = c' mod n_.
Proof.
  intros H1 H2 Hr. pose proof (@ord_prime Pr Laws) as PR. change (Zpos (@ord Pr)) with (@n_ Pr) in PR. set (n := @n_ Pr) in *. clearbody n.
  assert (N0 : n <> 0) by (destruct PR; lia).
  apply Z.mod_divide in H1, H2; try exact N0. assert (D : (n | r * (c - c'))) by (replace (r * (c - c')) with ((y - r * c') - (y - r * c)) by ring; apply Z.divide_sub_r; assumption).
  apply prime_mult in D; [|exact PR]. destruct D as [D | D]; [exfalso; apply Hr, Z.mod_divide; assumption|].
  destruct D as [k Hk]. replace c with (c' + k * n) by lia. apply Z.mod_add, N0.
Qed.
Lemma coef_inj (o : opened Pr) (e e' : ending Pr) : coef_input o e = coef_input o e' -> e = e'.
Proof.
  unfold coef_input. rewrite !cbytes_ext_ser. intro H. apply app_inv_head in H. rewrite <- !app_assoc in H.
  apply app_inj_len in H as [H1 H]; [|now rewrite !ser_mpoint_len].
  apply app_inj_len in H as [H2 H]; [|now rewrite !ser_mpoint_len].
  apply app_inv_head in H. apply ser_mpoint_inj in H1, H2. destruct e, e'. cbn in *. congruence.
Qed.
End Numbers.

Section Over.
Context {Pr : prims}.
Lemma numbered_nth {A} (l : list A) j z b : In (j, z) (combine (seq b (length l)) l) <-> (b <= j)%nat /\ nth_error l (j - b) = Some z.
Proof.
  revert b. induction l as [|a l IH]; intro b; cbn [length seq combine].
  - split; [intros [] | intros [_ H]; destruct (j - b)%nat; discriminate H].
  - split.
    + intros [[= -> ->] | H]; [split; [lia | rewrite Nat.sub_diag; reflexivity]|]. apply IH in H as [H1 H2]. split; [lia|].
      replace (j - b)%nat with (S (j - S b)) by lia. exact H2.
    + intros [H1 H2]. destruct (Nat.eq_dec j b) as [-> | N]; [left; rewrite Nat.sub_diag in H2; injection H2 as ->; reflexivity|].
      right. apply IH. split; [lia|]. replace (j - b)%nat with (S (j - S b)) in H2 by lia. exact H2.
Qed.
Lemma numbered_0 {A} (l : list A) j z : In (j, z) (combine (seq 0 (length l)) l) <-> nth_error l j = Some z.
Proof. rewrite numbered_nth, Nat.sub_0_r. split; [intros [_ H]; exact H | intro H; split; [lia | exact H]]. Qed.
Lemma over_mod {A B} (l : list A) (l' : list B) f f' (n : Z) : n <> 0 -> length l = length l' ->
  (forall j z z', nth_error l j = Some z -> nth_error l' j = Some z' -> f j z mod n = f' j z' mod n) -> over l f mod n = over l' f' mod n.
Proof.
  intros Hn. unfold over. cut (forall b, length l = length l' -> (forall j z z', nth_error l j = Some z -> nth_error l' j = Some z' -> f (b + j)%nat z mod n = f' (b + j)%nat z' mod n) ->
    fold_right Z.add 0 (map (fun jz => f (fst jz) (snd jz)) (combine (seq b (length l)) l)) mod n =
    fold_right Z.add 0 (map (fun jz => f' (fst jz) (snd jz)) (combine (seq b (length l')) l')) mod n); [intros H; apply (H O)|].
  revert l'. induction l as [|a l IH]; intros [|a' l'] b L H; try discriminate L; [reflexivity|].
  cbn [length seq combine map fold_right fst snd]. injection L as L.
  rewrite Z.add_mod by exact Hn. rewrite (IH l' (S b) L). 2: { intros j z z' H1 H2. pose proof (H (S j) z z' H1 H2) as E. rewrite Nat.add_succ_r in E. exact E. }
  pose proof (H O a a' eq_refl eq_refl) as E. rewrite Nat.add_0_r in E. rewrite E. rewrite <- Z.add_mod by exact Hn. reflexivity.
Qed.
End Over.

Section Events.
Context {Pr : prims} {Laws : prims_ok Pr} {Tags : tags_ok Pr} (O : list (opened Pr)) (Y : target Pr) (names : list (bytes * bytes) -> bytes -> rep)
  (F : asker (attempt Pr)) (inputs digests : list bytes) (q c : nat) (HY : y_factor Y mod n_ <> 0) (HS : NoDup digests)
  (Hc : forall d, In d digests -> (count (same_residue d) digests <= c)%nat) (HF : asks_within inputs digests (fun _ => True) q F).
Let W := worlds inputs digests.
Let asks := qs (Pr := Pr) F.
Definition m_of (w : list (bytes * bytes)) : bytes := new_challenge Y (outcome (hash_in w) F).
Definition r_of (w : list (bytes * bytes)) : rep := names (until (hash_in w) (m_of w) F) (m_of w).
Definition e_of (w : list (bytes * bytes)) : list (opened Pr * ending Pr) := ended O (outcome (hash_in w) F).
Definition luck (w : list (bytes * bytes)) : bool := lucky O Y names F (hash_in w).

Lemma luck_spec w : luck w = true ->
  length (e_of w) = length O /\ In (m_of w) (asks w) /\
  (forall j o e, nth_error (e_of w) j = Some (o, e) -> nth_error O j = Some o /\ In (coef_input o e) (asks w) /\ m_of w <> end_challenge (hash_in w) o e /\
     (on_R2 (r_of w) j - on_R1 (r_of w) j * coef (hash_in w) o e) mod n_ = 0) /\
  (on_P (r_of w) + y_factor Y * int_from_bytes (hash_in w (m_of w))
    - over (e_of w) (fun j oe => on_R1 (r_of w) j * (end_factor (hash_in w) (fst oe) (snd oe) * int_from_bytes (hash_in w (end_challenge (hash_in w) (fst oe) (snd oe)))))) mod n_ = 0.
Proof.
  unfold luck, lucky, fresh. rewrite !andb_true_iff. intros [[[[L M] S1] S2] S3].
  assert (EX : forall m, existsb (bytes_eqb m) (asked (hash_in w) F) = true -> In m (asks w)).
  { intros m H. apply existsb_exists in H as (y & H1 & H2). apply bytes_eqb_eq in H2 as ->. exact H1. }
  apply Nat.eqb_eq in L. rewrite forallb_forall in S1, S2. apply Z.eqb_eq in S3.
  split; [unfold e_of, ended; rewrite combine_length, L; apply Nat.min_id|]. split; [apply EX, M|]. split; [|exact S3].
  intros j o e H. split.
  { clear - H. unfold e_of, ended in H. revert j H. generalize (t_ends (outcome (hash_in w) F)). induction O as [|a l IH]; intros [|b l'] [|j] H; cbn [combine nth_error] in *; try discriminate H.
    - injection H as -> _. reflexivity.
    - apply (IH l' j H). }
  pose proof (S1 _ (nth_error_In _ _ H)) as T1. cbn [fst snd] in T1. rewrite !andb_true_iff in T1. destruct T1 as [[T1 _] T2].
  split; [apply EX, T1|]. split.
  { intro E. unfold m_of in E. rewrite E, bytes_eqb_refl in T2. discriminate T2. }
  assert (I2 : In (j, (o, e)) (combine (seq 0 (length (e_of w))) (e_of w))) by (apply numbered_0, H).
  specialize (S2 _ I2). cbn [fst snd] in S2. apply Z.eqb_eq, S2.
Qed.

Definition at_ (m : bytes) (i : nat) (w : list (bytes * bytes)) : bool := match place m (asks w) with Some k => Nat.eqb k i | None => false end.
Definition evA (i i' j : nat) (w : list (bytes * bytes)) : bool :=
  luck w && at_ (m_of w) i w &&
  match nth_error (e_of w) j with
  | Some (o, e) => at_ (coef_input o e) i' w && negb (on_R1 (r_of w) j mod n_ =? 0)
  | None => false
  end.
Definition evB (i1 i2 : nat) (w : list (bytes * bytes)) : bool :=
  match new_at asks i1 w, new_at asks i2 w with Some x, Some y => same_residue (hash_in w x) (hash_in w y) | _, _ => false end.
Definition evE (i : nat) (w : list (bytes * bytes)) : bool :=
  luck w && at_ (m_of w) i w &&
  forallb (fun je => (on_R1 (r_of w) (fst je) mod n_ =? 0)
     || match place (coef_input (fst (snd je)) (snd (snd je))) (asks w) with Some k => Nat.ltb k i | None => false end) (combine (seq 0 (length (e_of w))) (e_of w)) &&
  forallb (fun k2 => forallb (fun k1 => negb (evB k1 k2 w)) (seq 0 k2)) (seq 0 i).

Lemma at_iff m i w : at_ m i w = true <-> place m (asks w) = Some i.
Proof. unfold at_. destruct (place m (asks w)) as [k|]; [rewrite Nat.eqb_eq; split; congruence | split; discriminate]. Qed.
Lemma place_new m i w : place m (asks w) = Some i -> new_at asks i w = Some m.
Proof. intro H. apply new_at_spec, place_spec, H. Qed.

Lemma same_m u x d p i : In u W -> new_at asks p u = Some x -> In d digests -> (i <= p)%nat ->
  place (m_of u) (asks u) = Some i -> place (m_of (put x d u)) (asks (put x d u)) = Some i ->
  m_of (put x d u) = m_of u /\ r_of (put x d u) = r_of u.
Proof.
  intros Hu Hx Hd Hi H1 H2. apply (two_place F inputs digests q _ HF u x d p Hu Hx Hd) in H2; [|exact Hi].
  assert (E : m_of (put x d u) = m_of u) by (apply (place_inj _ _ _ _ H2 H1)). split; [exact E|].
  unfold r_of. rewrite E. rewrite (two_until F u x d p Hx (m_of u) i Hi H1). reflexivity.
Qed.

Lemma rareA i i' j : (i < i')%nat -> (length digests * count (evA i i' j) W <= length W * c)%nat.
Proof.
  intro Hi. apply (rare_place F inputs digests q _ HF i' c _ HS Hc).
  - intros w Hw H. unfold evA in H. rewrite !andb_true_iff in H. destruct H as [_ H]. destruct (nth_error (e_of w) j) as [[o e]|]; [|discriminate H].
    apply andb_true_iff in H as [H _]. apply at_iff, place_new in H. unfold has_new. fold asks. rewrite H. reflexivity.
  - intros u x d Hu Hx Hd E1 E2. unfold evA in E1, E2. rewrite !andb_true_iff in E1, E2. destruct E1 as [[L1 M1] N1], E2 as [[L2 M2] N2].
    apply at_iff in M1, M2. destruct (same_m u x d i' i Hu Hx Hd ltac:(lia) M1 M2) as [EM ER]. rewrite ER in N2.
    destruct (nth_error (e_of u) j) as [[o e]|] eqn:J1; [|discriminate N1]. destruct (nth_error (e_of (put x d u)) j) as [[o' e']|] eqn:J2; [|discriminate N2].
    apply andb_true_iff in N1 as [N1 Z1]. apply andb_true_iff in N2 as [N2 _]. apply at_iff in N1, N2.
    apply (two_place F inputs digests q _ HF u x d i' Hu Hx Hd) in N2; [|lia].
    pose proof (two_at F u x i' Hx) as TX. pose proof (place_inj _ _ _ _ N1 TX) as X1. pose proof (place_inj _ _ _ _ N2 TX) as X2.
    apply luck_spec in L1 as (_ & _ & L1 & _), L2 as (_ & _ & L2 & _). destruct (L1 _ _ _ J1) as (_ & _ & _ & Q1). destruct (L2 _ _ _ J2) as (_ & _ & _ & Q2).
    rewrite ER in Q2. unfold coef in Q1, Q2. rewrite X1 in Q1. rewrite X2 in Q2. rewrite (two_hash_x F inputs digests q _ HF u x d i' Hu Hx) in Q2.
    unfold same_residue. apply Z.eqb_eq. rewrite negb_true_iff, Z.eqb_neq in Z1. pose proof (cancel_mod _ _ _ _ Q1 Q2 Z1) as R. rewrite !Z.mod_mod in R by discriminate. exact R.
Qed.
Lemma rareB i1 i2 : (i1 < i2)%nat -> (length digests * count (evB i1 i2) W <= length W * c)%nat.
Proof.
  intro Hi. apply (rare_place F inputs digests q _ HF i2 c _ HS Hc).
  - intros w Hw H. unfold evB in H. unfold has_new. fold asks. destruct (new_at asks i1 w); [|discriminate H]. destruct (new_at asks i2 w); [reflexivity | discriminate H].
  - intros u x d Hu Hx Hd E1 E2. unfold evB in E1, E2. fold asks in Hx. rewrite Hx in E1.
    destruct (new_at asks i1 u) as [y|] eqn:Y1; [|discriminate E1]. destruct (new_at asks i1 (put x d u)) as [y'|] eqn:Y2; [|discriminate E2].
    rewrite (new_at_put inputs digests asks (qs_in F inputs digests q _ HF) (qs_same F inputs digests) i2 u x d Hu Hd Hx) in E2.
    pose proof (two_at F u y i1 Y1) as P1. pose proof (two_at F _ y' i1 Y2) as P2. apply (two_place F inputs digests q _ HF u x d i2 Hu Hx Hd) in P2; [|lia].
    rewrite (place_inj _ _ _ _ P2 P1) in E2. rewrite (two_hash F u x d i2 Hx y i1 Hi P1), (two_hash_x F inputs digests q _ HF u x d i2 Hu Hx) in E2.
    unfold same_residue in *. apply Z.eqb_eq in E1, E2. apply Z.eqb_eq. congruence.
Qed.
Lemma no_collision i w y y' k k' : forallb (fun k2 => forallb (fun k1 => negb (evB k1 k2 w)) (seq 0 k2)) (seq 0 i) = true ->
  place y (asks w) = Some k -> place y' (asks w) = Some k' -> (k < i)%nat -> (k' < i)%nat -> same_residue (hash_in w y) (hash_in w y') = true -> y = y'.
Proof.
  intros H. rewrite forallb_forall in H.
  assert (G : forall y y' k k', place y (asks w) = Some k -> place y' (asks w) = Some k' -> (k < k')%nat -> (k' < i)%nat -> same_residue (hash_in w y) (hash_in w y') = true -> False).
  { intros a a' b b' P P' B B' R. specialize (H b' ltac:(apply in_seq; lia)). rewrite forallb_forall in H. specialize (H b ltac:(apply in_seq; lia)).
    unfold evB in H. rewrite (place_new _ _ _ P), (place_new _ _ _ P'), R in H. discriminate H. }
  intros P P' B B' R. destruct (Nat.lt_trichotomy k k') as [L | [-> | L]]; [exfalso; eauto | apply (place_inj _ _ _ _ P P') | exfalso].
  apply (G y' y k' k P' P L B). unfold same_residue in *. rewrite Z.eqb_sym. exact R.
Qed.
Lemma rareE i : (length digests * count (evE i) W <= length W * c)%nat.
Proof.
  apply (rare_place F inputs digests q _ HF i c _ HS Hc).
  - intros w Hw H. unfold evE in H. rewrite !andb_true_iff in H. destruct H as [[[_ H] _] _]. apply at_iff, place_new in H. unfold has_new. fold asks. rewrite H. reflexivity.
  - intros u x d Hu Hx Hd E1 E2. unfold evE in E1, E2. rewrite !andb_true_iff in E1, E2. destruct E1 as [[[L1 M1] B1] C1], E2 as [[[L2 M2] B2] _].
    apply at_iff in M1, M2. destruct (same_m u x d i i Hu Hx Hd (le_n _) M1 M2) as [EM ER].
    pose proof (two_at F u x i Hx) as TX. pose proof (place_inj _ _ _ _ M1 TX) as X1.
    apply luck_spec in L1 as (N1 & _ & L1 & Q1), L2 as (N2 & _ & L2 & Q2). rewrite EM, ER in Q2. rewrite X1 in Q1, Q2. rewrite ER in B2.
    rewrite (two_hash_x F inputs digests q _ HF u x d i Hu Hx) in Q2. rewrite forallb_forall in B1, B2.
    set (u' := put x d u) in *. set (r := r_of u) in *.
    match type of Q1 with (_ - over _ ?f) mod _ = 0 => set (f1 := f) in Q1 end. match type of Q2 with (_ - over _ ?f) mod _ = 0 => set (f2 := f) in Q2 end.
    assert (EO : over (e_of u) f1 mod n_ = over (e_of u') f2 mod n_).
    { apply over_mod; [discriminate | congruence|]. intros j [o e] [o' e'] J1 J2. unfold f1, f2. cbn [fst snd].
      destruct (L1 _ _ _ J1) as (O1 & _ & F1 & R1). destruct (L2 _ _ _ J2) as (O2 & _ & F2 & R2). rewrite O1 in O2. injection O2 as <-. rewrite ER in R2. fold r in R2.
      destruct (Z.eq_dec (on_R1 r j mod n_) 0) as [Z0 | NZ].
      - rewrite Z.mul_mod by discriminate. rewrite Z0. symmetry. rewrite Z.mul_mod by discriminate. rewrite Z0. reflexivity.
      - assert (P1 : exists k, place (coef_input o e) (asks u) = Some k /\ (k < i)%nat).
        { specialize (B1 (j, (o, e)) (proj2 (numbered_0 _ _ _) J1)). cbn [fst snd] in B1. apply orb_true_iff in B1 as [B1 | B1]; [apply Z.eqb_eq in B1; contradiction|].
          destruct (place (coef_input o e) (asks u)) as [k|]; [|discriminate B1]. exists k. split; [reflexivity | apply Nat.ltb_lt, B1]. }
        assert (P2 : exists k, place (coef_input o e') (asks u') = Some k /\ (k < i)%nat).
        { specialize (B2 (j, (o, e')) (proj2 (numbered_0 _ _ _) J2)). cbn [fst snd] in B2. apply orb_true_iff in B2 as [B2 | B2]; [apply Z.eqb_eq in B2; contradiction|].
          destruct (place (coef_input o e') (asks u')) as [k|]; [|discriminate B2]. exists k. split; [reflexivity | apply Nat.ltb_lt, B2]. }
        destruct P1 as (k & P1 & K1), P2 as (k' & P2 & K2). apply (two_place F inputs digests q _ HF u x d i Hu Hx Hd) in P2; [|lia].
        assert (CC : forall y z, place (coef_input o y) (asks u) = Some z -> (z < i)%nat -> hash_in u' (coef_input o y) = hash_in u (coef_input o y)).
        { intros y z PY ZY. apply (two_hash F u x d i Hx _ z ZY PY). }
        pose proof (cancel_mod _ _ _ _ R1 R2 NZ) as RR. unfold coef in RR. rewrite !Z.mod_mod in RR by discriminate. rewrite (CC e' k' P2 K2) in RR.
        assert (EE : e' = e).
        { symmetry. apply (coef_inj o). apply (no_collision i u _ _ k k' C1 P1 P2 K1 K2). unfold same_residue. apply Z.eqb_eq. exact RR. }
        subst e'.
        assert (GN : group_nonce (hash_in u') o e = group_nonce (hash_in u) o e) by (unfold group_nonce, coef; rewrite (CC e k P1 K1); reflexivity).
        assert (EC : end_challenge (hash_in u') o e = end_challenge (hash_in u) o e) by (unfold end_challenge; rewrite GN; reflexivity).
        unfold end_factor. rewrite GN, EC. unfold u'. rewrite hash_in_put_other; [reflexivity|]. rewrite <- X1. intro E. apply F1. symmetry. exact E. }
    unfold same_residue. apply Z.eqb_eq.
    assert (T1 : ((over (e_of u) f1 - on_P r) - y_factor Y * int_from_bytes (hash_in u x)) mod n_ = 0).
    { replace (_ - _ - _) with (- (on_P r + y_factor Y * int_from_bytes (hash_in u x) - over (e_of u) f1)) by ring. apply Z_mod_zero_opp_full, Q1. }
    assert (T2 : ((over (e_of u) f1 - on_P r) - y_factor Y * int_from_bytes d) mod n_ = 0).
    { replace (_ - _ - _) with (over (e_of u) f1 - (on_P r + y_factor Y * int_from_bytes d)) by ring. rewrite Zminus_mod, EO, <- Zminus_mod.
      replace (_ - _) with (- (on_P r + y_factor Y * int_from_bytes d - over (e_of u') f2)) by ring. apply Z_mod_zero_opp_full, Q2. }
    exact (cancel_mod _ _ _ _ T1 T2 HY).
Qed.

Lemma tags_differ (o : opened Pr) (e : ending Pr) (t : attempt Pr) : coef_input o e <> new_challenge Y t.
Proof.
  unfold coef_input, new_challenge, challenge_input, tag_twice. intro H. rewrite <- !app_assoc in H. apply app_inj_len in H as [H _]; [|rewrite !sha_len; reflexivity].
  rewrite tag_musig_noncecoef, tag_bip340_challenge in H. revert H. vm_compute. discriminate.
Qed.

Definition events : list (list (bytes * bytes) -> bool) :=
  map evE (seq 0 q) ++ flat_map (fun i2 => flat_map (fun i1 => evB i1 i2 :: map (evA i1 i2) (seq 0 (length O))) (seq 0 i2)) (seq 0 q).
Lemma forallb_false {X} (f : X -> bool) l : forallb f l = false -> exists a, In a l /\ f a = false.
Proof. induction l as [|a l IH]; cbn [forallb]; [discriminate|]. destruct (f a) eqn:E; [intro H; destruct (IH H) as (b & Hb & Fb); exists b; split; [right|]; assumption | intros _; exists a; split; [left; reflexivity | exact E]]. Qed.
Lemma flat_const {X B} (f : X -> list B) l k : (forall a, In a l -> length (f a) = k) -> length (flat_map f l) = (length l * k)%nat.
Proof. induction l as [|a l IH]; intro H; [reflexivity|]. cbn [flat_map length]. rewrite app_length, H, IH; [lia | intros; apply H; right; assumption | left; reflexivity]. Qed.
Lemma events_length : (2 * length events = 2 * q + (length O + 1) * (q * (q - 1)))%nat.
Proof.
  unfold events. rewrite app_length, map_length, seq_length. set (l := length O).
  assert (E : forall f : nat -> list (list (bytes * bytes) -> bool), (forall i, length (f i) = (i * (l + 1))%nat) -> forall n b, (2 * length (flat_map f (seq b n)) = (l + 1) * (n * (2 * b + n - 1)))%nat).
  { intros f Hf n. induction n as [|n IH]; intro b; cbn [seq flat_map length]; [lia|]. rewrite app_length, Hf, Nat.mul_add_distr_l, IH.
    replace (2 * S b + n - 1)%nat with (2 * b + n + 1)%nat by lia. replace (2 * b + S n - 1)%nat with (2 * b + n)%nat by lia. ring. }
  rewrite Nat.mul_add_distr_l, E; [replace (2 * 0 + q - 1)%nat with (q - 1)%nat by lia; reflexivity|].
  intro i. rewrite (flat_const _ _ (l + 1)), seq_length; [reflexivity|]. intros a _. cbn [length]. rewrite map_length, seq_length. unfold l. lia.
Qed.

Lemma lucky_event w : In w W -> luck w = true -> exists g, In g events /\ g w = true.
Proof.
  intros Hw L. pose proof (luck_spec w L) as (NE & HM & HO & _). destruct (qs_facts F inputs digests q _ HF w Hw) as [_ HL].
  destruct (place_some _ _ HM) as [i Pi]. pose proof (place_lt _ _ _ Pi) as Li. fold asks in HL.
  assert (IE : forall i2 i1 g, (i1 < i2)%nat -> (i2 < q)%nat -> In g (evB i1 i2 :: map (evA i1 i2) (seq 0 (length O))) -> In g events).
  { intros i2 i1 g H1 H2 H. unfold events. apply in_app_iff. right. apply in_flat_map. exists i2. split; [apply in_seq; lia|]. apply in_flat_map. exists i1. split; [apply in_seq; lia | exact H]. }
  destruct (forallb (fun je => (on_R1 (r_of w) (fst je) mod n_ =? 0)
     || match place (coef_input (fst (snd je)) (snd (snd je))) (asks w) with Some k => Nat.ltb k i | None => false end) (combine (seq 0 (length (e_of w))) (e_of w))) eqn:B.
  - destruct (forallb (fun k2 => forallb (fun k1 => negb (evB k1 k2 w)) (seq 0 k2)) (seq 0 i)) eqn:C.
    + exists (evE i). split; [unfold events; apply in_app_iff; left; apply in_map, in_seq; lia|]. unfold evE. rewrite L, B, C, (proj2 (at_iff _ _ _) Pi). reflexivity.
    + apply forallb_false in C as (k2 & I2 & C). apply forallb_false in C as (k1 & I1 & C). apply in_seq in I1, I2. apply negb_false_iff in C.
      exists (evB k1 k2). split; [apply (IE k2 k1); [lia | lia | left; reflexivity] | exact C].
  - apply forallb_false in B as ([j [o e]] & IJ & B). cbn [fst snd] in B. apply orb_false_iff in B as [B1 B2]. apply numbered_0 in IJ.
    destruct (HO _ _ _ IJ) as (OJ & IC & _). destruct (place_some _ _ IC) as [k Pk]. rewrite Pk in B2. apply Nat.ltb_ge in B2. pose proof (place_lt _ _ _ Pk) as Lk.
    assert (N : k <> i).
    { intros ->. apply (tags_differ o e (outcome (hash_in w) F)). apply (place_inj _ _ _ _ Pk Pi). }
    exists (evA i k j). split.
    + apply (IE k i); [lia | lia|]. right. apply in_map, in_seq. split; [lia|]. cbn. apply nth_error_Some. congruence.
    + unfold evA. rewrite L, (proj2 (at_iff _ _ _) Pi), IJ, (proj2 (at_iff _ _ _) Pk), B1. reflexivity.
Qed.
End Events.

Section Bridge.
Context {Pr : prims} {Laws : prims_ok Pr} {Tags : tags_ok Pr} (h : bytes -> bytes) {Laws' : prims_ok (with_hash Pr h)} {Tags' : tags_ok (with_hash Pr h)}.
Lemma tagged_coef m : @tagged_hash (with_hash Pr h) "MuSig/noncecoef" m = h (@tag_twice Pr "MuSig/noncecoef" ++ m).
Proof.
  unfold tagged_hash, tag_twice. pose proof (@tag_musig_noncecoef _ Tags') as T1. rewrite <- (@tag_musig_noncecoef _ Tags) in T1. rewrite T1, <- app_assoc. reflexivity.
Qed.
Lemma tagged_chal m : @tagged_hash (with_hash Pr h) "BIP0340/challenge" m = h (@tag_twice Pr "BIP0340/challenge" ++ m).
Proof.
  unfold tagged_hash, tag_twice. pose proof (@tag_bip340_challenge _ Tags') as T1. rewrite <- (@tag_bip340_challenge _ Tags) in T1. rewrite T1, <- app_assoc. reflexivity.
Qed.
Context (P : point Pr) (o : opened Pr) (e : ending Pr) (z : closed (with_hash Pr h)) (D : describes h P o e z).
Lemma described_b : v_b (use_values (z_use z)) = coef h o e.
Proof.
  destruct D as (D1 & D2 & D3 & D4 & D5 & _). unfold use_values, spec_values. cbn [v_b]. unfold spec_b, coef, coef_input. rewrite tagged_coef, D5.
  unfold aggnonce_to_bytes. rewrite D3, D4, <- !(@cbytes_ext_ser _ Laws'). change (@xbytes (with_hash Pr h)) with (@xbytes Pr). rewrite D1. reflexivity.
Qed.
Lemma described_R : @pt_add (with_hash Pr h) (v_R (use_values (z_use z))) (use_adaptor (z_use z)) = group_nonce h o e.
Proof.
  pose proof described_b as B. destruct D as (D1 & D2 & D3 & D4 & D5 & _). unfold use_values, spec_values in *. cbn [v_b v_R] in *. unfold spec_R_raw, group_nonce. rewrite B, D2, D3, D4. reflexivity.
Qed.
Lemma described_w : (use_sign (z_use z) * use_weight (rehash h P) (z_use z)) mod @n_ Pr = (end_factor h o e * int_from_bytes (h (end_challenge h o e))) mod @n_ Pr.
Proof.
  pose proof described_R as RR. unfold use_sign, use_weight. rewrite RR.
  assert (EE : v_e (use_values (z_use z)) = int_from_bytes (h (end_challenge h o e)) mod @n_ Pr).
  { destruct D as (D1 & D2 & D3 & D4 & D5 & _). unfold end_challenge, challenge_input. rewrite <- RR. unfold use_values, spec_values. cbn [v_e v_R]. rewrite tagged_chal, D5.
    change (@xbytes (with_hash Pr h)) with (@xbytes Pr). rewrite D1. reflexivity. }
  rewrite EE. destruct D as (_ & _ & _ & _ & _ & D6). unfold end_factor. change (@has_even_y (with_hash Pr h)) with (@has_even_y Pr).
  set (sg := if has_even_y _ then 1 else -1). set (E := int_from_bytes (h _)). set (a := spec_a _ _) in *. set (g := spec_g _ * v_gacc _) in *. set (n := @n_ Pr) in *.
  assert (N0 : n <> 0) by discriminate.
  replace (sg * (E mod n * a * g)) with ((sg * (a * g)) * (E mod n)) by ring. rewrite Z.mul_mod_idemp_r by exact N0.
  rewrite <- (Z.mul_mod_idemp_l _ E), <- (Z.mul_mod_idemp_r sg (a * g)), D6, Z.mul_mod_idemp_r, Z.mul_mod_idemp_l by exact N0. reflexivity.
Qed.
End Bridge.

Section C94_lucky_rare.
Context {Pr : prims}.
Add Ring ring_C94_lucky_rare : (fe_ring_theory (n := @ord Pr)).
Lemma C94_lucky_rare_proof {Laws : prims_ok Pr} {Tags : tags_ok Pr} (O : list (opened Pr)) (Y : target Pr) (names : list (bytes * bytes) -> bytes -> rep) (F : asker (attempt Pr)) (inputs digests : list bytes) (q c : nat) (HY : y_factor Y mod n_ <> 0) (HS : NoDup digests) (Hc : forall d, In d digests -> (count (same_residue d) digests <= c)%nat) (HF : asks_within inputs digests (fun _ => True) q F) :
  let lucky_worlds := count (fun w => lucky O Y names F (hash_in w)) (worlds inputs digests) in
  (2 * (length digests * lucky_worlds) <= (2 * q + (length O + 1) * (q * (q - 1))) * (length digests ^ length inputs * c))%nat.
Proof.
  cbv zeta. rewrite <- (length_worlds inputs digests), <- (events_length O Y names F q).
  pose proof (union_bound (worlds inputs digests) (luck O Y names F) (events O Y names F q) (length digests) (length (worlds inputs digests) * c)
    (lucky_event O Y names F inputs digests q HF)) as U.
  assert (R : forall g, In g (events O Y names F q) -> (length digests * count g (worlds inputs digests) <= length (worlds inputs digests) * c)%nat).
  { intros g Hg. unfold events in Hg. apply in_app_iff in Hg as [Hg | Hg].
    - apply in_map_iff in Hg as (i & <- & _). apply (rareE O Y names F inputs digests q c HY HS Hc HF).
    - apply in_flat_map in Hg as (i2 & _ & Hg). apply in_flat_map in Hg as (i1 & I1 & Hg). apply in_seq in I1. destruct Hg as [<- | Hg].
      + apply (rareB F inputs digests q c HS Hc HF). lia.
      + apply in_map_iff in Hg as (j & <- & _). apply (rareA O Y names F inputs digests q c HS Hc HF). lia. }
  specialize (U R). unfold luck in U. rewrite <- Nat.mul_assoc. apply Nat.mul_le_mono_l. exact U.
Qed.
End C94_lucky_rare.

Section C94_unlucky_forger_solves.
Context {Pr : prims}.
Add Ring ring_C94_unlucky_forger_solves : (fe_ring_theory (n := @ord Pr)).
Lemma C94_unlucky_forger_solves_proof {Laws : prims_ok Pr} {Tags : tags_ok Pr} (h : bytes -> bytes) (Hlen : forall m, length (h m) = 32%nat) (Tags' : tags_ok (with_hash Pr h)) (P : point Pr) (O : list (opened Pr)) (Y : target Pr) (names : list (bytes * bytes) -> bytes -> rep) (F : asker (attempt Pr)) (S : list (closed (with_hash Pr h))) (c : key_agg_ctx (with_hash Pr h)) (sig : bytes) (rK : point (with_hash Pr h) -> rep) (Hc : ctx_reachable c) (H : verify_single_bytes (aggregated_pubkey c) sig (t_msg (outcome h F)) = Ok tt) (HS : forall z, In z S -> session_of (rehash h P) z) (Hrx : firstn 32 sig = t_rx (outcome h F)) (HR : forall R, pt_lift (firstn 32 sig) = Some R -> stands (rehash h P) S (names (until h (new_challenge Y (outcome h F)) F) (new_challenge Y (outcome h F))) R) (HK : forall K, In K (pubkeys c) -> stands (rehash h P) S (rK K) (pval K)) (HK0 : forall K j, on_R1 (rK K) j = 0 /\ on_R2 (rK K) j = 0) (HY : pval (aggregated_pubkey c) = pval (y_key Y)) (Hfac : (key_sign c * (if parity_acc c then -1 else 1) * on_P (sum_rep (pubkeys c) rK)) mod @n_ Pr = y_factor Y mod @n_ Pr) (Hlen' : length S = length (ended O (outcome h F))) (Hses : forall j oe z, nth_error (ended O (outcome h F)) j = Some oe -> nth_error S j = Some z -> describes h P (fst oe) (snd oe) z) (Hfresh : fresh O Y F h = true) (Hluck : lucky O Y names F h = false) :
  let t := outcome h F in
  let msg := t_msg t in
  let m := plus (names (until h (new_challenge Y t) F) (new_challenge Y t)) (forged_E c sig msg) (sum_rep (pubkeys c) rK) in
  let s := int_from_bytes (skipn 32 sig) in
  let second j := fun y : Z => forall z, nth_error S j = Some z -> @point_mul Pr pt_G y = pval (pR2 (z_nonce z)) in
  (forall y, (forall j, second j (y j)) ->
   forall x, s mod @n_ Pr = whole (rehash h P) S c sig msg m x y mod @n_ Pr <-> point_mul pt_G x = pval P) \/
  (exists j, (j < length S)%nat /\
   forall x y, point_mul pt_G x = pval P -> (forall i, i <> j -> second i (y i)) ->
   (s mod @n_ Pr = whole (rehash h P) S c sig msg m x y mod @n_ Pr <-> second j (y j))).
Proof.
  cbv zeta. pose proof (with_hash_ok h Hlen) as Laws'.
  destruct (C89_forger_solves_proof (Pr := with_hash Pr h) (rehash h P) S c sig (t_msg (outcome h F)) _ rK Hc H HS HR HK) as (K1 & K2 & _).
  set (t := outcome h F) in *. set (mc := new_challenge Y t) in *. set (r := names (until h mc F) mc) in *. set (m := plus r _ _) in *.
  destruct (Z.eq_dec (left_P m (weights (rehash h P) S) mod @n_ Pr) 0) as [Z1 | N1]; [|left; exact (K1 N1)]. right.
  destruct (forallb (fun j => left_R2 m (coefs S) j mod @n_ Pr =? 0) (seq 0 (length S))) eqn:B.
  2: { apply forallb_false in B as (j & IJ & B). apply in_seq in IJ. apply Z.eqb_neq in B. exists j. split; [lia|]. exact (K2 j ltac:(lia) B). }
  exfalso. rewrite forallb_forall in B.
  assert (R1 : forall j, on_R1 m j = on_R1 r j).
  { intro j. unfold m, plus, sum_rep. cbn [on_R1]. assert (E : forall l, fold_right Z.add 0 (map (fun K => @coeff_in (with_hash Pr h) (pubkeys c) K * on_R1 (rK K) j) l) = 0).
    { induction l as [|K l IH]; [reflexivity|]. cbn [map fold_right]. rewrite (proj1 (HK0 K j)), IH. ring. }
    rewrite E. ring. }
  assert (R2 : forall j, on_R2 m j = on_R2 r j).
  { intro j. unfold m, plus, sum_rep. cbn [on_R2]. assert (E : forall l, fold_right Z.add 0 (map (fun K => @coeff_in (with_hash Pr h) (pubkeys c) K * on_R2 (rK K) j) l) = 0).
    { induction l as [|K l IH]; [reflexivity|]. cbn [map fold_right]. rewrite (proj2 (HK0 K j)), IH. ring. }
    rewrite E. ring. }
  assert (L : lucky O Y names F h = true); [|congruence].
  unfold lucky. fold t. fold mc. fold r. rewrite Hfresh. cbn [andb]. apply andb_true_iff. split.
  - apply forallb_forall. intros [j oe] HJ. apply numbered_0 in HJ. cbn [fst snd].
    destruct (nth_error S j) as [z|] eqn:EZ. 2: { apply nth_error_None in EZ. rewrite Hlen' in EZ. apply nth_error_None in EZ. congruence. }
    pose proof (described_b h P _ _ z (Hses j oe z HJ EZ)) as EB.
    assert (JS : (j < length S)%nat) by (apply nth_error_Some; congruence).
    specialize (B j ltac:(apply in_seq; lia)). unfold left_R2 in B. rewrite R1, R2 in B.
    assert (EN : nth j (coefs S) 0 = coef h (fst oe) (snd oe)).
    { unfold coefs. rewrite <- EB. apply nth_error_nth. rewrite nth_error_map, EZ. reflexivity. }
    rewrite EN in B. exact B.
  - apply Z.eqb_eq. rewrite <- Z1. unfold left_P.
    assert (EO : over (weights (rehash h P) S) (fun j w => on_R1 m j * w) mod @n_ Pr =
       over (ended O t) (fun j oe => on_R1 r j * (end_factor h (fst oe) (snd oe) * int_from_bytes (h (end_challenge h (fst oe) (snd oe))))) mod @n_ Pr).
    { apply over_mod; [discriminate | unfold weights; rewrite map_length; exact Hlen'|]. intros j w oe HW HJ. unfold weights in HW. rewrite nth_error_map in HW.
      destruct (nth_error S j) as [z|] eqn:EZ; [|discriminate HW]. injection HW as <-. rewrite R1.
      pose proof (described_w h P _ _ z (Hses j oe z HJ EZ)) as EW. rewrite Z.mul_mod by discriminate. rewrite EW. rewrite <- Z.mul_mod by discriminate. reflexivity. }
    rewrite Zminus_mod. symmetry. rewrite Zminus_mod. rewrite EO. f_equal. f_equal.
    unfold m, plus. cbn [on_P]. unfold forged_E. 
    assert (EE : forged_e c sig (t_msg t) = int_from_bytes (h mc)).
    { unfold forged_e, mc, new_challenge, challenge_input. rewrite (tagged_chal h), Hrx. change (@xbytes (with_hash Pr h)) with (@xbytes Pr). rewrite HY. reflexivity. }
    rewrite EE. rewrite Z.add_mod by discriminate. symmetry. rewrite Z.add_mod by discriminate. f_equal. f_equal.
    rewrite Z.mul_comm, <- Z.mul_mod_idemp_r, <- Hfac, Z.mul_mod_idemp_r by discriminate. f_equal. ring.
Qed.
End C94_unlucky_forger_solves.
