(** Counting: how often something that happens in many worlds happens again when one
    coordinate of the world is drawn anew. *)
From Coq Require Import List Arith Lia Permutation Bool.
From Verif Require Import Bytes BytesFacts Prims SpecFork.
Import ListNotations.
Local Open Scope nat_scope.
Local Open Scope list_scope.

(** Sums over lists. *)
Definition sum_over {A} (f : A -> nat) (l : list A) : nat := fold_right (fun x s => f x + s) 0 l.
(** 1 or 0. *)
Definition ind (b : bool) : nat := if b then 1 else 0.

Lemma sum_nil {A} (f : A -> nat) : sum_over f [] = 0. Proof. reflexivity. Qed.
Lemma sum_cons {A} (f : A -> nat) x l : sum_over f (x :: l) = f x + sum_over f l. Proof. reflexivity. Qed.
Lemma sum_app {A} (f : A -> nat) l l' : sum_over f (l ++ l') = sum_over f l + sum_over f l'.
Proof. induction l; cbn [app]; rewrite ?sum_nil, ?sum_cons; [reflexivity | rewrite IHl; lia]. Qed.
Lemma sum_map {A B} (g : A -> B) (f : B -> nat) l : sum_over f (map g l) = sum_over (fun x => f (g x)) l.
Proof. induction l; cbn [map]; rewrite ?sum_nil, ?sum_cons; congruence. Qed.
Lemma sum_ext {A} (f g : A -> nat) l : (forall x, In x l -> f x = g x) -> sum_over f l = sum_over g l.
Proof. induction l as [|x l IH]; intro H; [reflexivity|]. rewrite !sum_cons, (H x (or_introl eq_refl)), IH; [reflexivity | intros; apply H; right; assumption]. Qed.
Lemma sum_le {A} (f g : A -> nat) l : (forall x, In x l -> f x <= g x) -> sum_over f l <= sum_over g l.
Proof.
  induction l as [|x l IH]; intro H; [apply le_n|]. rewrite !sum_cons. pose proof (H x (or_introl eq_refl)).
  assert (sum_over f l <= sum_over g l) by (apply IH; intros; apply H; right; assumption). lia.
Qed.
Lemma sum_add {A} (f g : A -> nat) l : sum_over (fun x => f x + g x) l = sum_over f l + sum_over g l.
Proof. induction l; rewrite ?sum_nil, ?sum_cons; [reflexivity | rewrite IHl; lia]. Qed.
Lemma sum_scale {A} (k : nat) (f : A -> nat) l : sum_over (fun x => k * f x) l = k * sum_over f l.
Proof. induction l; rewrite ?sum_nil, ?sum_cons; [lia | rewrite IHl; lia]. Qed.
Lemma sum_const {A} (k : nat) (l : list A) : sum_over (fun _ => k) l = length l * k.
Proof. induction l; rewrite ?sum_nil, ?sum_cons; cbn [length]; lia. Qed.
Lemma sum_perm {A} (f : A -> nat) l l' : Permutation l l' -> sum_over f l = sum_over f l'.
Proof. induction 1; rewrite ?sum_cons; lia. Qed.
Lemma sum_prod {A B} (f : A * B -> nat) l l' :
  sum_over f (list_prod l l') = sum_over (fun a => sum_over (fun b => f (a, b)) l') l.
Proof. induction l as [|x l IH]; cbn [list_prod]; [reflexivity|]. rewrite sum_app, sum_map, sum_cons, IH. reflexivity. Qed.
Lemma sum_swap {A B} (f : A -> B -> nat) l l' :
  sum_over (fun a => sum_over (f a) l') l = sum_over (fun b => sum_over (fun a => f a b) l) l'.
Proof.
  induction l as [|x l IH]; [rewrite sum_nil; induction l'; [reflexivity | rewrite sum_cons, <- IHl'; reflexivity]|].
  rewrite sum_cons, IH, <- sum_add. apply sum_ext. intros. rewrite sum_cons. reflexivity.
Qed.
Lemma count_sum {A} (f : A -> bool) l : count f l = sum_over (fun x => ind (f x)) l.
Proof. unfold count. induction l as [|x l IH]; [reflexivity|]. rewrite sum_cons, <- IH. cbn [filter]. destruct (f x); reflexivity. Qed.
Lemma sum_filter {A} (p : A -> bool) (f : A -> nat) l : sum_over f (filter p l) = sum_over (fun x => ind (p x) * f x) l.
Proof. induction l as [|x l IH]; [reflexivity|]. rewrite sum_cons, <- IH. cbn [filter]. destruct (p x); rewrite ?sum_cons; cbn [ind]; lia. Qed.

Lemma cauchy {A} (f : A -> nat) l : sum_over f l * sum_over f l <= length l * sum_over (fun x => f x * f x) l.
Proof.
  induction l as [|x l IH]; [apply le_n|]. rewrite !sum_cons. cbn [length].
  assert (T : 2 * (f x * sum_over f l) <= length l * (f x * f x) + sum_over (fun y => f y * f y) l).
  { clear IH. induction l as [|y l IH]; [rewrite !sum_nil; lia|]. rewrite !sum_cons. cbn [length].
    assert (2 * (f x * f y) <= f x * f x + f y * f y) by (destruct (Nat.le_ge_cases (f x) (f y)); nia). nia. }
  nia.
Qed.

Lemma sum_involution {A} (t : A -> A) (f : A -> nat) l : NoDup l -> (forall x, In x l -> In (t x) l) ->
  (forall x, In x l -> t (t x) = x) -> sum_over (fun x => f (t x)) l = sum_over f l.
Proof.
  intros Nd Hin Ht. rewrite <- (sum_map t f). apply sum_perm. apply NoDup_Permutation_bis.
  - clear -Nd Ht. assert (H : forall l', incl l' l -> NoDup l' -> NoDup (map t l')).
    { induction l' as [|x l' IH]; intros Hi N; cbn [map]; [constructor|]. inversion N; subst. constructor.
      - rewrite in_map_iff. intros (y & E & Hy). apply H1. rewrite <- (Ht x), <- E, Ht; [exact Hy | apply Hi; right; exact Hy | apply Hi; left; reflexivity].
      - apply IH; [intros y Hy; apply Hi; right; exact Hy | assumption]. }
    apply H; [apply incl_refl | exact Nd].
  - rewrite map_length. apply le_n.
  - intros y Hy. apply in_map_iff in Hy as (x & <- & Hx). apply Hin, Hx.
Qed.

Lemma nodup_app {A} (l l' : list A) : NoDup l -> NoDup l' -> (forall x, In x l -> In x l' -> False) -> NoDup (l ++ l').
Proof.
  induction 1 as [|x l Hx N IH]; intros N' D; cbn [app]; [exact N'|]. constructor.
  - rewrite in_app_iff. intros [F | F]; [contradiction | apply (D x); [left; reflexivity | exact F]].
  - apply IH; [exact N' | intros y Hy; apply D; right; exact Hy].
Qed.
Lemma nodup_map {A B} (f : A -> B) l : (forall x y, f x = f y -> x = y) -> NoDup l -> NoDup (map f l).
Proof.
  intro Hf. induction 1 as [|x l Hx N IH]; cbn [map]; constructor; [|exact IH].
  rewrite in_map_iff. intros (y & E & Hy). apply Hf in E as ->. contradiction.
Qed.
Lemma nodup_prod {A B} (l : list A) (l' : list B) : NoDup l -> NoDup l' -> NoDup (list_prod l l').
Proof.
  intros N N'. induction N as [|x l Hx N IH]; cbn [list_prod]; [constructor|].
  apply nodup_app; [apply nodup_map; [congruence | exact N'] | exact IH|].
  intros [a b] H1 H2. apply in_map_iff in H1 as (y & [= <- <-] & _). apply in_prod_iff in H2 as [H2 _]. contradiction.
Qed.

(** One coordinate, drawn anew. *)
Section OnePlace.
Context {A B : Type} (W : list A) (S : list B) (set : A -> B -> A) (get : A -> B) (ok : A -> bool).
Hypothesis NW : NoDup W.
Hypothesis NS : NoDup S.
Hypothesis set_in : forall a b, In a W -> In b S -> In (set a b) W.
Hypothesis get_in : forall a, In a W -> In (get a) S.
Hypothesis set_get : forall a, In a W -> set a (get a) = a.
Hypothesis get_set : forall a b, In a W -> In b S -> get (set a b) = b.
Hypothesis set_set : forall a b b', In a W -> In b S -> In b' S -> set (set a b) b' = set a b'.

Lemma fork_one : length S * (count ok W * count ok W)
  <= length W * count (fun ab => ok (fst ab) && ok (set (fst ab) (snd ab))) (list_prod W S).
Proof.
  set (g := fun a => sum_over (fun b => ind (ok (set a b))) S).
  set (t := fun ab : A * B => (set (fst ab) (snd ab), get (fst ab))).
  assert (IV : forall f : A * B -> nat, sum_over (fun x => f (t x)) (list_prod W S) = sum_over f (list_prod W S)).
  { intro f. apply sum_involution; [apply nodup_prod; assumption | |]; intros [a b] H; apply in_prod_iff in H as [Ha Hb]; unfold t; cbn [fst snd].
    - apply in_prod_iff. auto.
    - rewrite set_set, set_get, get_set; auto. }
  assert (E1 : sum_over g W = length S * count ok W).
  { transitivity (sum_over (fun ab => ind (ok (fst (t ab)))) (list_prod W S)); [rewrite sum_prod; reflexivity|].
    rewrite (IV (fun ab => ind (ok (fst ab)))), sum_prod. cbn [fst]. rewrite count_sum, <- sum_scale. apply sum_ext. intros a _. apply sum_const. }
  assert (Eg : forall a b, In a W -> In b S -> g (set a b) = g a).
  { intros a b Ha Hb. unfold g. apply sum_ext. intros b' Hb'. rewrite set_set; auto. }
  assert (EP : count (fun ab => ok (fst ab) && ok (set (fst ab) (snd ab))) (list_prod W S) = sum_over (fun a => ind (ok a) * g a) W).
  { rewrite count_sum, sum_prod. apply sum_ext. intros a _. unfold g. cbn [fst snd]. rewrite <- sum_scale. apply sum_ext. intros b _.
    destruct (ok a), (ok (set a b)); reflexivity. }
  assert (E2 : sum_over (fun a => g a * g a) W = length S * sum_over (fun a => ind (ok a) * g a) W).
  { transitivity (sum_over (fun ab => ind (ok (set (fst ab) (snd ab))) * g (fst ab)) (list_prod W S)).
    { rewrite sum_prod. apply sum_ext. intros a _. cbn [fst snd]. unfold g at 1. rewrite Nat.mul_comm, <- sum_scale. apply sum_ext. intros; lia. }
    rewrite <- IV. rewrite sum_prod, <- sum_scale. apply sum_ext. intros a Ha. rewrite <- sum_const. apply sum_ext. intros b Hb.
    unfold t. cbn [fst snd]. rewrite set_set, set_get, Eg; auto. }
  rewrite EP. pose proof (cauchy g W) as C. rewrite E1, E2 in C.
  destruct (length S) as [|s]; [lia|]. set (X := sum_over (fun a => ind (ok a) * g a) W) in *. nia.
Qed.
End OnePlace.

(** A group acts on the worlds. *)
Section Action.
Context {A G : Type} (W : list A) (S : list G) (act : A -> G -> A) (ok : A -> bool).
Hypothesis NW : NoDup W.
Hypothesis act_in : forall a g, In a W -> In g S -> In (act a g) W.
Hypothesis act_inj : forall a a' g, In a W -> In a' W -> In g S -> act a g = act a' g -> a = a'.
Hypothesis act_act : forall (f : A -> nat) a g, In a W -> In g S ->
  sum_over (fun h => f (act (act a g) h)) S = sum_over (fun h => f (act a h)) S.

Lemma act_perm (f : A -> nat) g : In g S -> sum_over (fun a => f (act a g)) W = sum_over f W.
Proof.
  intro Hg. rewrite <- (sum_map (fun a => act a g) f). apply sum_perm. apply NoDup_Permutation_bis.
  - assert (H : forall l, incl l W -> NoDup l -> NoDup (map (fun a => act a g) l)).
    { induction l as [|x l IH]; intros Hi N; cbn [map]; [constructor|]. inversion N; subst. constructor.
      - rewrite in_map_iff. intros (y & E & Hy). apply act_inj in E; [subst; contradiction | apply Hi; right; exact Hy | apply Hi; left; reflexivity | exact Hg].
      - apply IH; [intros y Hy; apply Hi; right; exact Hy | assumption]. }
    apply H; [apply incl_refl | exact NW].
  - rewrite map_length. apply le_n.
  - intros y Hy. apply in_map_iff in Hy as (x & <- & Hx). apply act_in; assumption.
Qed.
Lemma fork_action : length S * (count ok W * count ok W)
  <= length W * count (fun ag => ok (fst ag) && ok (act (fst ag) (snd ag))) (list_prod W S).
Proof.
  set (g := fun a => sum_over (fun b => ind (ok (act a b))) S).
  assert (E1 : sum_over g W = length S * count ok W).
  { unfold g. rewrite sum_swap, <- sum_const. apply sum_ext. intros b Hb. rewrite (act_perm (fun a => ind (ok a))), count_sum; [reflexivity | exact Hb]. }
  assert (Eg : forall a b, In a W -> In b S -> g (act a b) = g a).
  { intros a b Ha Hb. unfold g. apply (act_act (fun a => ind (ok a))); assumption. }
  assert (EP : count (fun ab => ok (fst ab) && ok (act (fst ab) (snd ab))) (list_prod W S) = sum_over (fun a => ind (ok a) * g a) W).
  { rewrite count_sum, sum_prod. apply sum_ext. intros a _. unfold g. cbn [fst snd]. rewrite <- sum_scale. apply sum_ext. intros b _.
    destruct (ok a), (ok (act a b)); reflexivity. }
  assert (E2 : sum_over (fun a => g a * g a) W = length S * sum_over (fun a => ind (ok a) * g a) W).
  { transitivity (sum_over (fun a => sum_over (fun b => ind (ok (act a b)) * g (act a b)) S) W).
    { apply sum_ext. intros a Ha. unfold g at 1. rewrite Nat.mul_comm, <- sum_scale. apply sum_ext. intros b Hb. rewrite (Eg a b Ha Hb). lia. }
    rewrite sum_swap, <- sum_const. apply sum_ext. intros b Hb. apply (act_perm (fun a => ind (ok a) * g a)). exact Hb. }
  rewrite EP. pose proof (cauchy g W) as C. rewrite E1, E2 in C.
  destruct (length S) as [|s]; [lia|]. set (X := sum_over (fun a => ind (ok a) * g a) W) in *. nia.
Qed.
End Action.

(** The place depends on what happened: at most [length I] places. *)
Section Places.
Context {A B I : Type} (eqI : I -> I -> bool) (places : list I) (W : list A) (S : list B)
  (has : I -> A -> bool) (set : I -> A -> B -> A) (f : A -> option I).
Hypothesis eqI_eq : forall i j, eqI i j = true <-> i = j.
Hypothesis NI : NoDup places.
Hypothesis f_place : forall a i, In a W -> f a = Some i -> In i places /\ has i a = true.

(** It happens, and happens again at the same place. *)
Definition again (ab : A * B) : bool :=
  match f (fst ab) with
  | Some i => match f (set i (fst ab) (snd ab)) with Some i' => eqI i i' | None => false end
  | None => false
  end.
(** It happens at place [i]. *)
Definition at_place (i : I) (a : A) : bool := match f a with Some i' => eqI i i' | None => false end.

Lemma at_place_iff i a : at_place i a = true <-> f a = Some i.
Proof.
  unfold at_place. destruct (f a) as [j|]; [|split; discriminate]. rewrite eqI_eq. split; congruence.
Qed.
Lemma sum_places (a : A) : In a W -> sum_over (fun i => ind (at_place i a)) places = ind (match f a with Some _ => true | None => false end).
Proof.
  intro Ha. destruct (f a) as [j|] eqn:E.
  - destruct (f_place a j Ha E) as [Hj _]. clear f_place. induction NI as [|i l Hi N IH]; [destruct Hj|]. rewrite sum_cons.
    destruct Hj as [-> | Hj].
    + rewrite (proj2 (at_place_iff j a) E). rewrite (sum_ext _ (fun _ => 0)); [rewrite sum_const; cbn [ind]; lia|].
      intros i Hi'. destruct (at_place i a) eqn:F; [|reflexivity]. apply at_place_iff in F. congruence.
    + rewrite (IH N Hj). destruct (at_place i a) eqn:F; [|reflexivity]. apply at_place_iff in F. congruence.
  - rewrite (sum_ext _ (fun _ => 0)); [rewrite sum_const; cbn [ind]; lia|]. intros i _. unfold at_place. rewrite E. reflexivity.
Qed.

(** From the bound for each place to the bound for all. *)
Lemma fork_total :
  (forall i, In i places -> let V := filter (has i) W in
     length S * (count (at_place i) V * count (at_place i) V)
     <= length V * count (fun ab => at_place i (fst ab) && at_place i (set i (fst ab) (snd ab))) (list_prod V S)) ->
  let acc := count (fun a => match f a with Some _ => true | None => false end) W in
  length S * (acc * acc) <= length places * (length W * count again (list_prod W S)).
Proof.
  intro One.
  cbv zeta. set (acc := count _ W).
  set (p := fun i => count (at_place i) W).
  set (r := fun i => sum_over (fun ab => ind (at_place i (fst ab) && at_place i (set i (fst ab) (snd ab)))) (list_prod W S)).
  assert (EA : acc = sum_over p places).
  { unfold acc, p. rewrite count_sum.
    transitivity (sum_over (fun a => sum_over (fun i => ind (at_place i a)) places) W).
    - apply sum_ext. intros a Ha. symmetry. apply sum_places, Ha.
    - rewrite sum_swap. apply sum_ext. intros i _. symmetry. apply count_sum. }
  assert (ER : count again (list_prod W S) = sum_over r places).
  { unfold r. rewrite count_sum, sum_swap. apply sum_ext. intros [a b] Hab. apply in_prod_iff in Hab as [Ha Hb]. cbn [fst snd].
    unfold again. cbn [fst snd]. destruct (f a) as [j|] eqn:E.
    - transitivity (sum_over (fun i => ind (at_place i a) * ind (match f (set j a b) with Some i' => eqI j i' | None => false end)) places).
      + rewrite (sum_ext _ (fun i => ind (match f (set j a b) with Some i' => eqI j i' | None => false end) * ind (at_place i a))) by (intros; lia).
        rewrite sum_scale, (sum_places a Ha), E. cbn [ind]. lia.
      + apply sum_ext. intros i _. destruct (at_place i a) eqn:F; [|reflexivity]. apply at_place_iff in F. assert (i = j) as -> by congruence.
        cbn [andb ind]. unfold at_place. lia.
    - cbn [ind]. rewrite (sum_ext _ (fun _ => 0)); [rewrite sum_const; lia|]. intros i _. unfold at_place at 1. rewrite E. reflexivity. }
  assert (H1 : forall i, In i places -> length S * (p i * p i) <= length W * r i).
  { intros i Hi. set (V := filter (has i) W).
    assert (HV : forall a, In a V <-> In a W /\ has i a = true) by (intro; apply filter_In).
    assert (PE : p i = count (at_place i) V).
    { unfold p, V. rewrite !count_sum, sum_filter. apply sum_ext. intros a Ha. destruct (at_place i a) eqn:E; [|cbn [ind]; lia].
      apply at_place_iff in E. destruct (f_place a i Ha E) as [_ ->]. reflexivity. }
    pose proof (One i Hi) as H. cbv zeta in H. fold V in H. rewrite <- PE in H.
    assert (LV : length V <= length W) by (unfold V; clear; induction W; cbn [filter]; [lia|]; destruct (has i a); cbn [length]; lia).
    assert (LR : count (fun ab => at_place i (fst ab) && at_place i (set i (fst ab) (snd ab))) (list_prod V S) <= r i).
    { unfold r, V. rewrite count_sum, !sum_prod, sum_filter. apply sum_le. intros a _. destruct (has i a); cbn [ind]; lia. }
    eapply Nat.le_trans; [exact H|]. apply Nat.mul_le_mono; assumption. }
  rewrite EA, ER. pose proof (cauchy p places) as C.
  assert (H2 : length S * sum_over (fun i => p i * p i) places <= length W * sum_over r places).
  { rewrite <- !sum_scale. apply sum_le. exact H1. }
  nia.
Qed.
End Places.

(** The place depends on what happened, and one coordinate is drawn anew there. *)
Lemma fork_places {A B I : Type} (eqI : I -> I -> bool) (places : list I) (W : list A) (S : list B)
  (has : I -> A -> bool) (set : I -> A -> B -> A) (get : I -> A -> B) (f : A -> option I) :
  (forall i j, eqI i j = true <-> i = j) -> NoDup places -> NoDup W -> NoDup S ->
  (forall a i, In a W -> f a = Some i -> In i places /\ has i a = true) ->
  (forall i a b, In a W -> has i a = true -> In b S -> In (set i a b) W /\ has i (set i a b) = true) ->
  (forall i a, In a W -> has i a = true -> In (get i a) S) ->
  (forall i a, In a W -> has i a = true -> set i a (get i a) = a) ->
  (forall i a b, In a W -> has i a = true -> In b S -> get i (set i a b) = b) ->
  (forall i a b b', In a W -> has i a = true -> In b S -> In b' S -> set i (set i a b) b' = set i a b') ->
  let acc := count (fun a => match f a with Some _ => true | None => false end) W in
  length S * (acc * acc) <= length places * (length W * count (again eqI set f) (list_prod W S)).
Proof.
  intros EI NI NW NS Hf H1 H2 H3 H4 H5. apply (fork_total eqI places W S has set f EI NI Hf). intros i Hi. cbv zeta.
  assert (HV : forall a, In a (filter (has i) W) <-> In a W /\ has i a = true) by (intro; apply filter_In).
  apply fork_one with (get := get i).
  - apply NoDup_filter, NW.
  - exact NS.
  - intros a b Ha Hb. apply HV in Ha as [Ha Hh]. apply HV. apply H1; assumption.
  - intros a Ha. apply HV in Ha as [Ha Hh]. apply H2; assumption.
  - intros a Ha. apply HV in Ha as [Ha Hh]. apply H3; assumption.
  - intros a b Ha Hb. apply HV in Ha as [Ha Hh]. apply H4; assumption.
  - intros a b b' Ha Hb Hb'. apply HV in Ha as [Ha Hh]. apply H5; assumption.
Qed.
(** The same for a group acting there. *)
Lemma fork_actions {A G I : Type} (eqI : I -> I -> bool) (places : list I) (W : list A) (S : list G)
  (has : I -> A -> bool) (act : I -> A -> G -> A) (f : A -> option I) :
  (forall i j, eqI i j = true <-> i = j) -> NoDup places -> NoDup W ->
  (forall a i, In a W -> f a = Some i -> In i places /\ has i a = true) ->
  (forall i a g, In a W -> has i a = true -> In g S -> In (act i a g) W /\ has i (act i a g) = true) ->
  (forall i a a' g, In a W -> In a' W -> has i a = true -> has i a' = true -> In g S -> act i a g = act i a' g -> a = a') ->
  (forall i (k : A -> nat) a g, In a W -> has i a = true -> In g S ->
     sum_over (fun h => k (act i (act i a g) h)) S = sum_over (fun h => k (act i a h)) S) ->
  let acc := count (fun a => match f a with Some _ => true | None => false end) W in
  length S * (acc * acc) <= length places * (length W * count (again eqI act f) (list_prod W S)).
Proof.
  intros EI NI NW Hf H1 H2 H3. apply (fork_total eqI places W S has act f EI NI Hf). intros i Hi. cbv zeta.
  assert (HV : forall a, In a (filter (has i) W) <-> In a W /\ has i a = true) by (intro; apply filter_In).
  apply fork_action.
  - apply NoDup_filter, NW.
  - intros a g Ha Hg. apply HV in Ha as [Ha Hh]. apply HV. apply H1; assumption.
  - intros a a' g Ha Ha' Hg. apply HV in Ha as [Ha Hh], Ha' as [Ha' Hh']. apply H2; assumption.
  - intros k a g Ha Hg. apply HV in Ha as [Ha Hh]. apply H3; assumption.
Qed.

(** ** Worlds. *)
Lemma in_worlds M S w : In w (worlds M S) <-> map fst w = M /\ forall e, In e w -> In (snd e) S.
Proof.
  revert w. induction M as [|m M IH]; intro w; cbn [worlds].
  - split; [intros [<- | []]; split; [reflexivity | intros e []] | intros [E _]; destruct w; [left; reflexivity | discriminate E]].
  - rewrite in_flat_map. split.
    + intros (d & Hd & H). apply in_map_iff in H as (w' & <- & Hw). apply IH in Hw as [E Hw]. cbn [map fst]. rewrite E.
      split; [reflexivity|]. intros e [<- | He]; [exact Hd | apply Hw, He].
    + intros [E H]. destruct w as [|[m' d] w]; [discriminate|]. cbn [map fst] in E. injection E as <- E. exists d.
      split; [exact (H _ (or_introl eq_refl))|]. apply in_map. apply IH. split; [exact E | intros e He; apply H; right; exact He].
Qed.
Lemma nodup_flat {A B} (f : A -> list B) l : NoDup l -> (forall a, In a l -> NoDup (f a)) ->
  (forall a a' b, In a l -> In a' l -> In b (f a) -> In b (f a') -> a = a') -> NoDup (flat_map f l).
Proof.
  induction 1 as [|x l Hx N IH]; intros H1 H2; cbn [flat_map]; [constructor|]. apply nodup_app.
  - apply H1. left. reflexivity.
  - apply IH; [intros; apply H1; right; assumption | intros a a' b Ha Ha'; apply H2; right; assumption].
  - intros b Hb Hb'. apply in_flat_map in Hb' as (a & Ha & Hb'). apply Hx. rewrite (H2 x a b); auto; [left; reflexivity | right; exact Ha].
Qed.
Lemma nodup_worlds M S : NoDup S -> NoDup (worlds M S).
Proof.
  intro N. induction M as [|m M IH]; cbn [worlds]; [constructor; [intros [] | constructor]|]. apply nodup_flat; [exact N | |].
  - intros d _. apply nodup_map; [congruence | exact IH].
  - intros d d' w _ _ H H'. apply in_map_iff in H as (v & <- & _), H' as (v' & E & _). congruence.
Qed.
Lemma length_worlds M S : length (worlds M S) = length S ^ length M.
Proof.
  induction M as [|m M IH]; cbn [worlds length]; [reflexivity|]. rewrite Nat.pow_succ_r', <- IH.
  generalize (worlds M S) as v. intro v. clear IH. induction S as [|d l IHl]; cbn [flat_map length]; [reflexivity|]. rewrite app_length, map_length, IHl. lia.
Qed.

Lemma put_keys m d w : map fst (put m d w) = map fst w.
Proof. induction w as [|[m' d'] w IH]; cbn [put]; [reflexivity|]. destruct (bytes_eqb m m'); cbn [map fst]; [reflexivity | rewrite IH; reflexivity]. Qed.
Lemma put_in M S m d w : In w (worlds M S) -> In d S -> In (put m d w) (worlds M S).
Proof.
  intros Hw Hd. apply in_worlds in Hw as [E H]. apply in_worlds. rewrite put_keys. split; [exact E|]. clear E.
  induction w as [|[m' d'] w IH]; cbn [put]; [exact H|]. destruct (bytes_eqb m m').
  - intros e [<- | He]; [exact Hd | apply H; right; exact He].
  - intros e [<- | He]; [exact (H _ (or_introl eq_refl)) | revert e He; apply IH; intros e He; apply H; right; exact He].
Qed.
Lemma put_put m d d' w : put m d' (put m d w) = put m d' w.
Proof.
  induction w as [|[m' x] w IH]; cbn [put]; [reflexivity|]. destruct (bytes_eqb m m') eqn:E; cbn [put]; rewrite E; [reflexivity | rewrite IH; reflexivity].
Qed.
Lemma put_assigned m d w : assigned w m = Some d -> put m d w = w.
Proof.
  induction w as [|[m' x] w IH]; cbn [put assigned]; [discriminate|]. destruct (bytes_eqb m m'); [congruence|]. intro H. rewrite IH by exact H. reflexivity.
Qed.
Lemma assigned_in M S m w : In w (worlds M S) -> In m M -> exists d, assigned w m = Some d /\ In d S.
Proof.
  intros Hw Hm. apply in_worlds in Hw as [<- H]. induction w as [|[m' x] w IH]; cbn [map fst] in Hm; [destruct Hm|]. cbn [assigned].
  destruct (bytes_eqb m m') eqn:E; [exists x; split; [reflexivity | exact (H _ (or_introl eq_refl))]|].
  apply IH; [intros e He; apply H; right; exact He | destruct Hm as [-> | Hm]; [rewrite bytes_eqb_refl in E; discriminate | exact Hm]].
Qed.
Lemma assigned_put_same M S m d w : In w (worlds M S) -> In m M -> assigned (put m d w) m = Some d.
Proof.
  intros Hw Hm. apply in_worlds in Hw as [<- _]. induction w as [|[m' x] w IH]; cbn [map fst] in Hm; [destruct Hm|]. cbn [put].
  destruct (bytes_eqb m m') eqn:E; cbn [assigned]; rewrite E; [reflexivity|]. apply IH.
  destruct Hm as [-> | Hm]; [rewrite bytes_eqb_refl in E; discriminate | exact Hm].
Qed.
Lemma assigned_put_other m d w m' : m' <> m -> assigned (put m d w) m' = assigned w m'.
Proof.
  intro N. induction w as [|[k x] w IH]; cbn [put]; [reflexivity|]. destruct (bytes_eqb m k) eqn:E; cbn [assigned].
  - apply bytes_eqb_eq in E as <-. destruct (bytes_eqb m' m) eqn:F; [apply bytes_eqb_eq in F; contradiction | reflexivity].
  - rewrite IH. reflexivity.
Qed.

(** ** Places. *)
Lemma place_spec m l i : place m l = Some i -> nth_error l i = Some m /\ ~ In m (firstn i l).
Proof.
  revert i. induction l as [|x l IH]; intros i; cbn [place]; [discriminate|]. destruct (bytes_eqb m x) eqn:E.
  - intros [= <-]. apply bytes_eqb_eq in E as ->. split; [reflexivity | intros []].
  - destruct (place m l) as [k|]; [|discriminate]. intros [= <-]. destruct (IH k eq_refl) as [H1 H2]. split; [exact H1|].
    cbn [firstn]. intros [-> | F]; [rewrite bytes_eqb_refl in E; discriminate | contradiction].
Qed.
Lemma place_some m l : In m l -> exists i, place m l = Some i.
Proof.
  induction l as [|x l IH]; intro H; [destruct H|]. cbn [place]. destruct (bytes_eqb m x) eqn:E; [exists 0; reflexivity|].
  destruct IH as [i ->]; [destruct H as [-> | H]; [rewrite bytes_eqb_refl in E; discriminate | exact H]|]. exists (S i). reflexivity.
Qed.
Lemma place_lt m l i : place m l = Some i -> i < length l.
Proof. intro H. apply place_spec in H as [H _]. apply nth_error_Some. congruence. Qed.
Lemma nth_firstn {A} (l : list A) i : nth_error (firstn (S i) l) i = nth_error l i.
Proof. revert i. induction l as [|x l IH]; intros [|i]; try reflexivity. exact (IH i). Qed.
Lemma firstn_S_firstn {A} (l l' : list A) i : firstn (S i) l = firstn (S i) l' -> firstn i l = firstn i l'.
Proof. intro H. apply (f_equal (firstn i)) in H. rewrite !firstn_firstn, !Nat.min_l in H by lia. exact H. Qed.

(** ** Programs. *)
Section Askers.
Context {A : Type} (M S : list bytes) (fin : A -> Prop).

Lemma asked_within q (F : asker A) h : asks_within M S fin q F -> (forall m, In m M -> In (h m) S) ->
  (forall m, In m (asked h F) -> In m M) /\ length (asked h F) <= q /\ fin (outcome h F).
Proof.
  revert q. induction F as [a | x k IH]; intros q H Hh; cbn [asked outcome asks_within] in *.
  - split; [intros m []|]. split; [apply Nat.le_0_l | exact H].
  - destruct q as [|q]; [destruct H|]. destruct H as [Hx Hk]. destruct (IH (h x) q (Hk _ (Hh x Hx)) Hh) as (I1 & I2 & I3).
    split; [intros m [<- | Hm]; [exact Hx | apply I1, Hm]|]. split; [cbn [length]; lia | exact I3].
Qed.

(** A digest that is not asked for before the question [i] does not change the question [i]. *)
Lemma asked_same_where (F : asker A) (h h' : bytes -> bytes) (p : bytes -> Prop) (e e' : A -> list bytes) i :
  (forall x, ~ p x -> h' x = h x) -> (forall a, e a = e' a) ->
  (forall m, In m (firstn i (asked h F ++ e (outcome h F))) -> ~ p m) ->
  firstn (Datatypes.S i) (asked h' F ++ e' (outcome h' F)) = firstn (Datatypes.S i) (asked h F ++ e (outcome h F)).
Proof.
  intros Hh He. revert i. induction F as [a | x k IH]; intros i Hm; cbn [asked outcome app] in *; [rewrite He; reflexivity|].
  destruct i as [|i]; [reflexivity|]. cbn [firstn] in Hm.
  assert (E : h' x = h x) by (apply Hh, Hm; left; reflexivity).
  rewrite E. cbn [firstn]. f_equal. apply IH. intros m F. apply Hm. right. exact F.
Qed.
Lemma asked_same (F : asker A) (h h' : bytes -> bytes) m (e e' : A -> list bytes) i :
  (forall x, x <> m -> h' x = h x) -> (forall a, e a = e' a) ->
  ~ In m (firstn i (asked h F ++ e (outcome h F))) ->
  firstn (Datatypes.S i) (asked h' F ++ e' (outcome h' F)) = firstn (Datatypes.S i) (asked h F ++ e (outcome h F)).
Proof. intros Hh He Hm. apply (asked_same_where F h h' (fun x => x = m)); [exact Hh | exact He | intros x Hx ->; contradiction]. Qed.
End Askers.

(** ** Drawing one digest anew. *)
Section Redraw.
Context {Pr : prims} (M S : list bytes) (qs : list (bytes * bytes) -> list bytes).
Hypothesis qs_in : forall w m, In w (worlds M S) -> In m (qs w) -> In m M.
Hypothesis qs_same : forall w m d i, In w (worlds M S) -> In m M -> In d S -> ~ In m (firstn i (qs w)) ->
  firstn (Datatypes.S i) (qs (put m d w)) = firstn (Datatypes.S i) (qs w).

(** The question at a place, if it is asked there for the first time. *)
Definition new_at (i : nat) (w : list (bytes * bytes)) : option bytes :=
  match nth_error (qs w) i with
  | Some m => if existsb (bytes_eqb m) (firstn i (qs w)) then None else Some m
  | None => None
  end.
(** There is one. *)
Definition has_new (i : nat) (w : list (bytes * bytes)) : bool := match new_at i w with Some _ => true | None => false end.
(** The world with another digest for it. *)
Definition redraw (i : nat) (w : list (bytes * bytes)) (d : bytes) : list (bytes * bytes) :=
  match new_at i w with Some m => put m d w | None => w end.
(** Its digest. *)
Definition drawn (i : nat) (w : list (bytes * bytes)) : bytes := match new_at i w with Some m => hash_in w m | None => [] end.

Lemma new_at_spec i w m : new_at i w = Some m <-> nth_error (qs w) i = Some m /\ ~ In m (firstn i (qs w)).
Proof.
  unfold new_at. destruct (nth_error (qs w) i) as [x|]; [|split; [discriminate | intros [F _]; discriminate F]].
  destruct (existsb (bytes_eqb x) (firstn i (qs w))) eqn:E.
  - split; [discriminate|]. intros [[= ->] F]. exfalso. apply F. apply existsb_exists in E as (y & Hy & E). apply bytes_eqb_eq in E as <-. exact Hy.
  - split.
    + intros [= ->]. split; [reflexivity|]. intro F. apply Bool.not_true_iff_false in E. apply E. apply existsb_exists. exists m. split; [exact F | apply bytes_eqb_refl].
    + intros [[= ->] _]. reflexivity.
Qed.
Lemma new_at_in i w m : In w (worlds M S) -> new_at i w = Some m -> In m M.
Proof. intros Hw H. apply new_at_spec in H as [H _]. apply nth_error_In in H. exact (qs_in w m Hw H). Qed.
Lemma new_at_put i w m d : In w (worlds M S) -> In d S -> new_at i w = Some m -> new_at i (put m d w) = Some m.
Proof.
  intros Hw Hd H. pose proof (new_at_in i w m Hw H) as Hm. apply new_at_spec in H as [H1 H2].
  pose proof (qs_same w m d i Hw Hm Hd H2) as E. apply new_at_spec. rewrite <- nth_firstn, E, nth_firstn.
  rewrite (firstn_S_firstn _ _ _ E). split; assumption.
Qed.
Lemma hash_in_put_same m d w : In w (worlds M S) -> In m M -> hash_in (put m d w) m = d.
Proof. intros Hw Hm. unfold hash_in. rewrite (assigned_put_same M S); [reflexivity | assumption | assumption]. Qed.
Lemma hash_in_put_other m d w m' : m' <> m -> hash_in (put m d w) m' = hash_in w m'.
Proof. intro N. unfold hash_in. rewrite assigned_put_other by exact N. reflexivity. Qed.
Lemma hash_in_in w m : In w (worlds M S) -> In m M -> In (hash_in w m) S.
Proof. intros Hw Hm. destruct (assigned_in M S m w Hw Hm) as (d & E & Hd). unfold hash_in. rewrite E. exact Hd. Qed.

Lemma has_new_some i w : has_new i w = true -> exists m, new_at i w = Some m.
Proof. unfold has_new. destruct (new_at i w) as [m|]; [exists m; reflexivity | discriminate]. Qed.
Lemma redraw_in i w d : In w (worlds M S) -> has_new i w = true -> In d S -> In (redraw i w d) (worlds M S) /\ has_new i (redraw i w d) = true.
Proof.
  intros Hw H Hd. apply has_new_some in H as [m E]. unfold redraw, has_new. rewrite E. rewrite (new_at_put i w m d Hw Hd E).
  split; [apply put_in; assumption | reflexivity].
Qed.
Lemma drawn_in i w : In w (worlds M S) -> has_new i w = true -> In (drawn i w) S.
Proof.
  intros Hw H. apply has_new_some in H as [m E]. unfold drawn. rewrite E. apply hash_in_in; [exact Hw | exact (new_at_in i w m Hw E)].
Qed.
Lemma redraw_drawn i w : In w (worlds M S) -> has_new i w = true -> redraw i w (drawn i w) = w.
Proof.
  intros Hw H. apply has_new_some in H as [m E]. unfold redraw, drawn. rewrite E.
  destruct (assigned_in M S m w Hw (new_at_in i w m Hw E)) as (d & F & _). unfold hash_in. rewrite F. apply put_assigned, F.
Qed.
Lemma drawn_redraw i w d : In w (worlds M S) -> has_new i w = true -> In d S -> drawn i (redraw i w d) = d.
Proof.
  intros Hw H Hd. apply has_new_some in H as [m E]. unfold redraw, drawn. rewrite E, (new_at_put i w m d Hw Hd E).
  apply hash_in_put_same; [exact Hw | exact (new_at_in i w m Hw E)].
Qed.
Lemma redraw_redraw i w d d' : In w (worlds M S) -> has_new i w = true -> In d S -> In d' S -> redraw i (redraw i w d) d' = redraw i w d'.
Proof.
  intros Hw H Hd Hd'. apply has_new_some in H as [m E]. unfold redraw. rewrite E, (new_at_put i w m d Hw Hd E). apply put_put.
Qed.
End Redraw.
