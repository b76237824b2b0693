(** Lemmas about the round state machines. *)
From Coq Require Import List Arith Lia Sorting.Sorted.
From Verif Require Import Bytes BytesFacts Prims PrimsFacts CodecFacts TaggedHashes Errors SpecTags
  KeyAgg Nonces Signature Signing SigAgg Bip340 SpecCtx KeyAggFacts SigningFacts SignatureFacts
  SpecSession SessionFacts Rounds SpecRounds.
Import ListNotations.
Open Scope nat_scope.

(** *** Lists *)

Lemma on_file_app {A} (l m : list (nat * A)) i :
  on_file (l ++ m) i = match on_file l i with Some v => Some v | None => on_file m i end.
Proof.
  unfold on_file. induction l as [|c l IH]; cbn [app find]; [reflexivity|].
  destruct (fst c =? i); [reflexivity|exact IH].
Qed.
Lemma on_file_one {A} i (v : A) j : on_file [(i, v)] j = if i =? j then Some v else None.
Proof. unfold on_file. cbn [find fst]. destruct (i =? j); reflexivity. Qed.
Lemma on_file_cons {A} i (v : A) l j : on_file ((i, v) :: l) j = if i =? j then Some v else on_file l j.
Proof. unfold on_file. cbn [find fst]. destruct (i =? j); reflexivity. Qed.
Lemma on_file_In {A} (l : list (nat * A)) i v : on_file l i = Some v -> In (i, v) l.
Proof.
  unfold on_file. destruct (find _ l) as [[j w]|] eqn:E; cbn [option_map snd]; [|discriminate].
  intro H. assert (w = v) by congruence. subst w. apply find_some in E as [E1 E2].
  cbn [fst] in E2. apply Nat.eqb_eq in E2. subst j. exact E1.
Qed.
Lemma on_file_None {A} (l : list (nat * A)) i : on_file l i = None <-> forall v, ~ In (i, v) l.
Proof.
  split.
  - intros H v Hin. unfold on_file in H. destruct (find _ l) eqn:E; [discriminate|].
    apply (find_none _ _ E) in Hin. cbn [fst] in Hin. rewrite Nat.eqb_refl in Hin. discriminate.
  - intro H. destruct (on_file l i) as [v|] eqn:E; [|reflexivity]. apply on_file_In in E. destruct (H v E).
Qed.

(** Strictly increasing lists. *)
Definition increasing (l : list nat) : Prop :=
  forall p q y z, p < q -> nth_error l p = Some y -> nth_error l q = Some z -> y < z.

Lemma increasing_SS l : increasing l <-> StronglySorted lt l.
Proof.
  induction l as [|x l IH].
  - split; [constructor|]. intros _ p q y z _ H. destruct p; discriminate.
  - split.
    + intro H. constructor.
      * apply IH. intros p q y z Hpq Hy Hz. apply (H (S p) (S q) y z); [lia|assumption|assumption].
      * apply Forall_forall. intros z Hz. apply In_nth_error in Hz as [q Hq].
        apply (H 0 (S q) x z); [lia|reflexivity|assumption].
    + intro H. inversion H as [|? ? H1 H2]; subst. apply IH in H1. intros [|p] [|q] y z Hpq Hy Hz; try lia; cbn [nth_error] in *.
      * assert (y = x) by congruence. subst y. rewrite Forall_forall in H2. apply H2. eapply nth_error_In, Hz.
      * apply (H1 p q); [lia|assumption|assumption].
Qed.

Lemma SS_filter f l : StronglySorted lt l -> StronglySorted lt (filter f l).
Proof.
  induction 1 as [|x l H IH HF]; cbn [filter]; [constructor|].
  destruct (f x); [|exact IH]. constructor; [exact IH|]. apply Forall_forall. intros y Hy.
  apply filter_In in Hy as [Hy _]. rewrite Forall_forall in HF. auto.
Qed.
Lemma SS_seq a n : StronglySorted lt (seq a n).
Proof.
  revert a. induction n as [|n IH]; intro a; cbn [seq]; [constructor|]. constructor; [apply IH|].
  apply Forall_forall. intros y Hy. apply in_seq in Hy. lia.
Qed.

Lemma bsearch_found l x : increasing l -> forall fuel lo hi, hi <= length l -> hi - lo < fuel ->
  (exists p, lo <= p < hi /\ nth_error l p = Some x) ->
  exists p, bsearch fuel l x lo hi = Some p /\ nth_error l p = Some x.
Proof.
  intros Hinc. induction fuel as [|f IH]; intros lo hi Hhi Hf (p & Hp & Hx); [lia|]. cbn [bsearch].
  destruct (Nat.leb_spec hi lo) as [H|H]; [lia|].
  set (mid := lo + (hi - lo) / 2).
  assert (Hmid : lo <= mid < hi) by (unfold mid; pose proof (Nat.div_lt (hi - lo) 2); lia).
  destruct (nth_error l mid) as [y|] eqn:Ey; [|apply nth_error_None in Ey; lia].
  destruct (Nat.eqb_spec y x) as [->|Hne]; [exists mid; auto|].
  destruct (Nat.ltb_spec y x) as [Hlt|Hge].
  - apply IH; [lia|lia|]. exists p. split; [|assumption]. split; [|lia].
    destruct (Nat.lt_trichotomy p mid) as [H1|[H1|H1]]; [|subst p; congruence|lia].
    pose proof (Hinc p mid x y H1 Hx Ey). lia.
  - apply IH; [lia|lia|]. exists p. split; [|assumption]. split; [lia|].
    destruct (Nat.lt_trichotomy p mid) as [H1|[H1|H1]]; [lia|subst p; congruence|].
    pose proof (Hinc mid p y x H1 Ey Hx). lia.
Qed.

Lemma binary_search_found l x : StronglySorted lt l -> In x l ->
  exists p, binary_search l x = Some p /\ nth_error l p = Some x.
Proof.
  intros Hs Hin. apply increasing_SS in Hs. unfold binary_search. apply bsearch_found; [assumption|lia|lia|].
  apply In_nth_error in Hin as [p Hp]. exists p. split; [|assumption]. split; [lia|].
  apply nth_error_Some. congruence.
Qed.

Lemma remove_at_filter l p x : StronglySorted lt l -> nth_error l p = Some x ->
  remove_at l p = filter (fun j => negb (x =? j)) l.
Proof.
  intros Hs. revert p. induction Hs as [|y l Hs IH HF]; intros p Hp; [destruct p; discriminate|].
  unfold remove_at. destruct p as [|p]; cbn [nth_error firstn skipn app filter] in *.
  - assert (y = x) by congruence. subst y. rewrite Nat.eqb_refl. cbn [negb].
    symmetry. rewrite Forall_forall in HF. clear IH Hs Hp.
    induction l as [|z l IHl]; cbn [filter]; [reflexivity|].
    pose proof (HF z (or_introl eq_refl)). destruct (Nat.eqb_spec x z); [lia|]. cbn [negb]. f_equal.
    apply IHl. intros w Hw. apply HF. right. exact Hw.
  - rewrite Forall_forall in HF. pose proof (HF x (nth_error_In _ _ Hp)).
    destruct (Nat.eqb_spec x y); [lia|]. cbn [negb]. f_equal. apply IH. exact Hp.
Qed.

Lemma nth_map_seq {A} (f : nat -> A) n i : i < n -> nth_error (map f (seq 0 n)) i = Some (f i).
Proof.
  intro H. rewrite (map_nth_error f i (seq 0 n) (d := i)); [reflexivity|].
  rewrite (nth_error_nth' _ 0) by (rewrite seq_length; exact H). rewrite seq_nth by exact H. reflexivity.
Qed.

Lemma set_nth_map {A} (f g : nat -> A) v i n a : i < n ->
  (forall j, j <> a + i -> f j = g j) -> g (a + i) = v ->
  set_nth (map f (seq a n)) i v = map g (seq a n).
Proof.
  revert i a. induction n as [|n IH]; intros i a Hi Hfg Hv; [lia|]. cbn [seq map].
  destruct i as [|i]; cbn [set_nth].
  - rewrite Nat.add_0_r in *. rewrite Hv. f_equal. apply map_ext_in. intros j Hj. apply in_seq in Hj. apply Hfg. lia.
  - rewrite (Hfg a) by lia. f_equal. apply IH; [lia| |rewrite <- Hv; f_equal; lia].
    intros j Hj. apply Hfg. lia.
Qed.

(** *** Slots against the history of deliveries *)
Section SlotFacts.
Context {T : Type} (teqb : T -> T -> bool).
Hypothesis teqb_eq : forall a b, teqb a b = true <-> a = b.

(** [Option::is_none]. *)
Definition is_none {A} (o : option A) : bool := match o with None => true | Some _ => false end.
(** The signers with nothing on file. *)
Definition missing (n : nat) (calls : list (nat * T)) : list nat :=
  filter (fun i => is_none (on_file calls i)) (seq 0 n).
(** The slots represent a history of deliveries (src/rounds.rs:12-64). *)
Definition slots_ok (n : nat) (s : slots T) (calls : list (nat * T)) : Prop :=
  slot_vec s = map (on_file calls) (seq 0 n) /\ open_slots s = missing n calls.

Lemma slots_new_ok n : slots_ok n (slots_new n) [].
Proof.
  unfold slots_ok, slots_new, missing. cbn [slot_vec open_slots]. split.
  - generalize 0. induction n as [|n IH]; intro a; cbn [seq map repeat]; [reflexivity|]. f_equal. apply IH.
  - unfold on_file. cbn [find option_map is_none]. generalize 0.
    induction n as [|n IH]; intro a; cbn [seq filter]; [reflexivity|]. f_equal. apply IH.
Qed.

Lemma missing_sorted n calls : StronglySorted lt (missing n calls).
Proof. apply SS_filter, SS_seq. Qed.
Lemma missing_In n calls i : In i (missing n calls) <-> i < n /\ on_file calls i = None.
Proof.
  unfold missing. rewrite filter_In, in_seq. destruct (on_file calls i); cbn [is_none]; split; intros [H1 H2]; split; try lia; try congruence.
Qed.

Lemma missing_snoc n calls i v :
  missing n (calls ++ [(i, v)]) = filter (fun j => negb (i =? j)) (missing n calls).
Proof.
  unfold missing. induction (seq 0 n) as [|a l IH]; cbn [filter]; [reflexivity|].
  rewrite on_file_app, on_file_one. destruct (on_file calls a) as [w|]; cbn [is_none]; [exact IH|].
  cbn [filter]. destruct (i =? a); cbn [is_none negb]; rewrite IH; reflexivity.
Qed.

(** Every possible outcome of [place]. *)
Lemma place_spec n s calls v i : slots_ok n s calls ->
  (n <= i /\ place teqb s v i = (s, Err (RoundContributionError i (OutOfRange n)))) \/
  (i < n /\ exists w, on_file calls i = Some w /\
     place teqb s v i = (s, if teqb v w then Ok tt else Err (RoundContributionError i InconsistentContribution))) \/
  (i < n /\ on_file calls i = None /\ exists s', place teqb s v i = (s', Ok tt) /\ slots_ok n s' (calls ++ [(i, v)])).
Proof.
  intros [Hv Ho]. unfold place. rewrite Hv, map_length, seq_length.
  destruct (Nat.leb_spec n i) as [H|H]; [left; auto|]. right. rewrite nth_map_seq by assumption.
  destruct (on_file calls i) as [w|] eqn:E.
  - left. split; [assumption|]. exists w. split; [reflexivity|]. destruct (teqb v w); reflexivity.
  - right. split; [assumption|]. split; [reflexivity|].
    destruct (binary_search_found (open_slots s) i) as (p & Hp & Hx).
    { rewrite Ho. apply missing_sorted. } { rewrite Ho, missing_In. auto. }
    rewrite Hp. eexists. split; [reflexivity|]. split; cbn [slot_vec open_slots].
    + apply set_nth_map; [assumption| |].
      * intros j Hj. cbn [Nat.add] in Hj. rewrite on_file_app, on_file_one. destruct (on_file calls j); [reflexivity|].
        destruct (Nat.eqb_spec i j); [congruence|reflexivity].
      * cbn [Nat.add]. rewrite on_file_app, E, on_file_one, Nat.eqb_refl. reflexivity.
    + rewrite missing_snoc, <- Ho. apply remove_at_filter; [rewrite Ho; apply missing_sorted | assumption].
Qed.

(** After any call the history can be extended by it. *)
Lemma slots_ok_ext n s calls calls' : slots_ok n s calls ->
  (forall i, i < n -> on_file calls i = on_file calls' i) -> slots_ok n s calls'.
Proof.
  intros [Hv Ho] H. split.
  - rewrite Hv. apply map_ext_in. intros j Hj. apply in_seq in Hj. apply H. lia.
  - rewrite Ho. unfold missing. apply filter_ext_in. intros j Hj. apply in_seq in Hj. rewrite H by lia. reflexivity.
Qed.

Lemma place_ok n s calls v i : slots_ok n s calls ->
  slots_ok n (fst (place teqb s v i)) (calls ++ [(i, v)]) /\ snd (place teqb s v i) <> Panic.
Proof.
  intro H. destruct (place_spec n s calls v i H) as [[H1 ->]|[(H1 & w & Hw & ->)|(H1 & H2 & s' & -> & H4)]]; cbn [fst snd].
  - split; [|discriminate]. eapply slots_ok_ext; [eassumption|]. intros j Hj. rewrite on_file_app, on_file_one.
    destruct (on_file calls j); [reflexivity|]. destruct (Nat.eqb_spec i j); [lia|reflexivity].
  - split; [|destruct (teqb v w); discriminate]. eapply slots_ok_ext; [eassumption|]. intros j Hj. rewrite on_file_app, on_file_one.
    destruct (on_file calls j) eqn:E; [reflexivity|]. destruct (Nat.eqb_spec i j); [congruence|reflexivity].
  - split; [assumption|discriminate].
Qed.

Lemma slots_unique n s s' calls calls' : slots_ok n s calls -> slots_ok n s' calls' ->
  (forall i, i < n -> on_file calls i = on_file calls' i) -> s = s'.
Proof.
  intros H H' HE. apply (slots_ok_ext n s calls calls') in H; [|assumption].
  destruct s as [v o], s' as [v2 o2], H, H'. cbn in *. congruence.
Qed.

Lemma collect_Ok (l : list (option T)) vs : collect l = Ok vs <-> l = map Some vs.
Proof.
  revert vs. induction l as [|[v|] l IH]; intros vs; cbn [collect].
  - destruct vs; cbn [map]; split; congruence.
  - destruct (collect l) as [vs'| |]; cbn [bind].
    + destruct vs as [|w vs]; cbn [map]; split; intro H; try discriminate.
      * injection H as -> ->. f_equal. apply IH. reflexivity.
      * injection H as -> H. apply IH in H. congruence.
    + split; [discriminate|]. intro H. destruct vs as [|w vs]; cbn [map] in H; [discriminate|]. injection H as _ H. apply IH in H. discriminate.
    + split; [discriminate|]. intro H. destruct vs as [|w vs]; cbn [map] in H; [discriminate|]. injection H as _ H. apply IH in H. discriminate.
  - split; [discriminate|]. destruct vs; discriminate.
Qed.
Lemma collect_cases (l : list (option T)) : (exists vs, collect l = Ok vs) \/ (collect l = Err FE_Incomplete /\ In None l).
Proof.
  induction l as [|[v|] l IH]; cbn [collect]; [left; eauto| |right; split; [reflexivity|left; reflexivity]].
  destruct IH as [[vs ->]|[-> H]]; cbn [bind]; [left; eauto|right]. split; [reflexivity|right; exact H].
Qed.

Lemma finalize_complete n s calls : slots_ok n s calls ->
  (exists vs, slots_finalize s = Ok vs /\ remaining s = [] /\ length vs = n /\
     forall i, i < n -> nth_error vs i = on_file calls i) \/
  (slots_finalize s = Err FE_Incomplete /\ remaining s <> []).
Proof.
  intros [Hv Ho]. unfold slots_finalize, remaining. destruct (collect_cases (slot_vec s)) as [[vs E]|[E Hin]].
  - left. exists vs. split; [assumption|]. apply collect_Ok in E. rewrite Hv in E.
    assert (HL : length vs = n).
    { apply (f_equal (@length _)) in E. rewrite !map_length, seq_length in E. congruence. }
    assert (HN : forall i, i < n -> option_map Some (nth_error vs i) = Some (on_file calls i)).
    { intros i Hi. rewrite <- nth_error_map, <- E. apply nth_map_seq, Hi. }
    split; [|split; [assumption|]].
    + rewrite Ho. destruct (missing n calls) as [|a l] eqn:EM; [reflexivity|].
      assert (HI : In a (missing n calls)) by (rewrite EM; left; reflexivity). apply missing_In in HI as [H1 H2].
      specialize (HN a H1). rewrite H2 in HN. destruct (nth_error vs a); cbn [option_map] in HN; congruence.
    + intros i Hi. specialize (HN i Hi). destruct (nth_error vs i); cbn [option_map] in HN; [congruence|discriminate].
  - right. split; [assumption|]. rewrite Hv in Hin. apply in_map_iff in Hin as (a & H1 & H2). apply in_seq in H2.
    assert (HI : In a (open_slots s)) by (rewrite Ho, missing_In; split; [lia|assumption]).
    intro H. rewrite H in HI. destruct HI.
Qed.
End SlotFacts.

(** *** Rounds *)
Section RoundFacts.
Context {Pr : prims} {Laws : prims_ok Pr} {Tags : tags_ok Pr}.
Add Ring fring : (fe_ring_theory (n := @ord Pr)).

Lemma pubnonce_eqb_eq (a b : pub_nonce Pr) : pubnonce_eqb a b = true <-> a = b.
Proof.
  unfold pubnonce_eqb. rewrite andb_true_iff, !pt_eqb_eq. split.
  - intros [H1 H2]. destruct a as [a1 a2], b as [b1 b2]. cbn in *. f_equal; apply point_ext; assumption.
  - intros ->. auto.
Qed.
Lemma mscalar_eqb_eq (a b : mscalar Pr) : mscalar_eqb a b = true <-> a = b.
Proof. apply feqb_eq. Qed.

(** The number of signers of a context. *)
Definition nsigners (c : key_agg_ctx Pr) : nat := length (pubkeys c).

(** The first round represents its history. *)
Definition fr_ok (r : first_round Pr) (calls : list (nat * pub_nonce Pr)) : Prop :=
  fr_index r < nsigners (fr_ctx r) /\
  slots_ok (nsigners (fr_ctx r)) (fr_slots r) ((fr_index r, our_public_nonce r) :: calls).

Lemma get_pubkey_nth (c : key_agg_ctx Pr) i : get_pubkey c i = nth_error (pubkeys c) i.
Proof. reflexivity. Qed.

Lemma first_round_new_ok c seed i sp r : first_round_new c seed i sp = Ok r ->
  fr_ctx r = c /\ fr_index r = i /\ fr_ok r [] /\
  exists pk b, get_pubkey c i = Some pk /\ round_builder c seed i pk sp = Ok b /\ fr_secnonce r = build b.
Proof.
  unfold first_round_new. destruct (get_pubkey c i) as [pk|] eqn:E; [|discriminate].
  destruct (round_builder c seed i pk sp) as [b| |] eqn:EB; try discriminate.
  pose proof (slots_new_ok (length (pubkeys c)) (T := pub_nonce Pr)) as H0.
  destruct (place_spec pubnonce_eqb _ _ [] (public_nonce (build b)) i H0) as [[H1 H2]|[(H1 & w & Hw & H2)|(H1 & H2 & s' & H3 & H4)]].
  - rewrite H2. discriminate.
  - discriminate.
  - rewrite H3. intro HH. apply Ok_inj in HH. subst r. cbn [fr_ctx fr_index fr_secnonce].
    split; [reflexivity|]. split; [reflexivity|]. split; [|eauto].
    split; [exact H1|]. exact H4.
Qed.

Lemma receive_nonce_fields (r : first_round Pr) i n :
  fr_ctx (fst (receive_nonce r i n)) = fr_ctx r /\ fr_index (fst (receive_nonce r i n)) = fr_index r /\
  fr_secnonce (fst (receive_nonce r i n)) = fr_secnonce r.
Proof. unfold receive_nonce. destruct (place _ _ _ _). auto. Qed.

Lemma fr_run_ok calls : forall r hist, fr_ok r hist ->
  let r' := fst (fr_run r calls) in
  fr_ctx r' = fr_ctx r /\ fr_index r' = fr_index r /\ fr_secnonce r' = fr_secnonce r /\
  fr_ok r' (hist ++ calls) /\ ~ In Panic (snd (fr_run r calls)) /\ length (snd (fr_run r calls)) = length calls.
Proof.
  induction calls as [|[i n] calls IH]; intros r hist Hr.
  - cbn [fr_run fst snd length In]. rewrite app_nil_r. split; [|split; [|split; [|split; [|split]]]]; auto.
  - cbn [fr_run]. pose proof (receive_nonce_fields r i n) as (F1 & F2 & F3).
    destruct (receive_nonce r i n) as [r1 o] eqn:E. cbn [fst] in *.
    assert (Hr1 : fr_ok r1 (hist ++ [(i, n)]) /\ o <> Panic).
    { destruct Hr as [Hi Hs]. unfold receive_nonce in E.
      pose proof (place_ok pubnonce_eqb _ _ _ n i Hs) as [Hp1 Hp2].
      destruct (place pubnonce_eqb (fr_slots r) n i) as [s o'] eqn:EP. cbn [fst snd] in *.
      assert (r1 = {| fr_ctx := fr_ctx r; fr_index := fr_index r; fr_secnonce := fr_secnonce r; fr_slots := s |}) by congruence.
      assert (o = o') by congruence. subst r1 o'. split; [|assumption]. split; [exact Hi|]. exact Hp1. }
    destruct Hr1 as [Hr1 Ho]. specialize (IH r1 _ Hr1). destruct (fr_run r1 calls) as [r2 os]. cbn [fst snd] in *.
    destruct IH as (A1 & A2 & A3 & A4 & A5 & A6). rewrite <- app_assoc in A4. cbn [app] in A4.
    split; [congruence|]. split; [congruence|]. split; [congruence|]. split; [exact A4|].
    split; [|cbn [length]; congruence]. intros [H|H]; [contradiction|auto].
Qed.

(** The outcome of one more call. *)
Lemma receive_nonce_spec r hist i n : fr_ok r hist ->
  let N := nsigners (fr_ctx r) in
  let calls := (fr_index r, our_public_nonce r) :: hist in
  (N <= i /\ receive_nonce r i n = (r, Err (RoundContributionError i (OutOfRange N)))) \/
  (i < N /\ exists w, on_file calls i = Some w /\
     ((n = w /\ receive_nonce r i n = (r, Ok tt)) \/
      (n <> w /\ receive_nonce r i n = (r, Err (RoundContributionError i InconsistentContribution))))) \/
  (i < N /\ on_file calls i = None /\ exists r', receive_nonce r i n = (r', Ok tt)).
Proof.
  intros [Hi Hs] N calls. unfold receive_nonce.
  assert (Eta : {| fr_ctx := fr_ctx r; fr_index := fr_index r; fr_secnonce := fr_secnonce r; fr_slots := fr_slots r |} = r)
    by (destruct r; reflexivity).
  destruct (place_spec pubnonce_eqb _ _ _ n i Hs) as [[H1 H2]|[(H1 & w & Hw & H2)|(H1 & H2 & s' & H3 & H4)]].
  - left. split; [assumption|]. rewrite H2, Eta. reflexivity.
  - right; left. split; [assumption|]. exists w. split; [assumption|]. rewrite H2, Eta.
    destruct (pubnonce_eqb n w) eqn:E.
    + left. apply pubnonce_eqb_eq in E. auto.
    + right. split; [|reflexivity]. intro HH. apply pubnonce_eqb_eq in HH. congruence.
  - right; right. split; [assumption|]. split; [assumption|]. rewrite H3. eauto.
Qed.

Lemma fr_unique r r' hist hist' : fr_ok r hist -> fr_ok r' hist' ->
  fr_ctx r = fr_ctx r' -> fr_index r = fr_index r' -> fr_secnonce r = fr_secnonce r' ->
  (forall i, i < nsigners (fr_ctx r) -> i <> fr_index r -> on_file hist i = on_file hist' i) -> r = r'.
Proof.
  intros [_ H] [_ H'] E1 E2 E3 HE.
  assert (HS : fr_slots r = fr_slots r').
  { rewrite <- E1 in H'. eapply slots_unique; [exact H|exact H'|]. intros i Hi. rewrite !on_file_cons, <- E2.
    unfold our_public_nonce. rewrite <- E3. destruct (Nat.eqb_spec (fr_index r) i); [reflexivity|]. apply HE; auto. }
  destruct r, r'. cbn in *. congruence.
Qed.

(** *** The second round *)

(** The second round represents its history. *)
Definition sr_ok (r : second_round Pr) (ours : mscalar Pr) (hist : list (nat * mscalar Pr)) : Prop :=
  sr_index r < nsigners (sr_ctx r) /\ length (sr_pubnonces r) = nsigners (sr_ctx r) /\
  sr_aggnonce r = agg_sum (sr_pubnonces r) /\
  slots_ok (nsigners (sr_ctx r)) (sr_slots r) ((sr_index r, ours) :: hist).

Lemma fr_finalize_spec r hist sk T msg : fr_ok r hist ->
  (fr_holdouts r <> [] /\ fr_finalize_adaptor r sk T msg = Err FE_Incomplete) \/
  (fr_holdouts r = [] /\ exists pns, length pns = nsigners (fr_ctx r) /\
     (forall i, i < nsigners (fr_ctx r) -> nth_error pns i = on_file ((fr_index r, our_public_nonce r) :: hist) i) /\
     match sign_partial_adaptor (fr_ctx r) sk (fr_secnonce r) (agg_sum pns) T msg with
     | Ok s => exists sr, fr_finalize_adaptor r sk T msg = Ok sr /\ sr_ok sr s [] /\
         sr_ctx sr = fr_ctx r /\ sr_index sr = fr_index r /\ sr_pubnonces sr = pns /\
         sr_adaptor sr = T /\ sr_message sr = msg
     | Err e => fr_finalize_adaptor r sk T msg = Err (FE_SigningError e)
     | Panic => fr_finalize_adaptor r sk T msg = Panic
     end).
Proof.
  intros [Hi Hs]. unfold fr_finalize_adaptor, fr_holdouts.
  destruct (finalize_complete _ _ _ Hs) as [(pns & E & Hr & HL & HN)|[E Hr]]; rewrite E; cbn [bind]; [right|left; auto].
  split; [assumption|]. exists pns. split; [assumption|]. split; [assumption|].
  destruct (sign_partial_adaptor _ _ _ _ _ _) as [s|e|]; cbn [map_err bind]; try reflexivity.
  pose proof (slots_new_ok (length pns) (T := mscalar Pr)) as H0.
  destruct (place_spec mscalar_eqb _ _ [] s (fr_index r) H0) as [[H1 H2]|[(H1 & w & Hw & H2)|(H1 & H2 & s' & H3 & H4)]].
  - lia.
  - discriminate.
  - rewrite H3. eexists. split; [reflexivity|]. cbn. split; [|auto 6]. split; [exact Hi|]. cbn. split; [assumption|].
    split; [reflexivity|]. rewrite HL in H4. exact H4.
Qed.

(** Whether a call is a valid signature. *)
Definition sr_check (r : second_round Pr) (call : nat * mscalar Pr) : bool :=
  match nth_error (pubkeys (sr_ctx r)) (fst call), nth_error (sr_pubnonces r) (fst call) with
  | Some pk, Some pn =>
      is_ok (verify_partial_adaptor (sr_ctx r) (snd call) (sr_aggnonce r) (sr_adaptor r) pk pn (sr_message r))
  | _, _ => false
  end.

Lemma sr_check_valid r ours hist i s : ctx_wf (sr_ctx r) -> sr_ok r ours hist ->
  (sr_check r (i, s) = true <-> session_valid (sr_ctx r) (sr_pubnonces r) (sr_adaptor r) (sr_message r) i s).
Proof.
  intros Hwf (Hi & HL & HA & _). unfold sr_check, session_valid. cbn [fst snd]. rewrite HA.
  destruct (nth_error (pubkeys (sr_ctx r)) i) as [pk|] eqn:E1.
  2:{ split; [discriminate|]. intros (pk & pn & H & _). discriminate. }
  destruct (nth_error (sr_pubnonces r) i) as [pn|] eqn:E2.
  2:{ split; [discriminate|]. intros (pk' & pn & _ & H & _). discriminate. }
  rewrite (verify_member _ _ _ _ _ _ _ Hwf (nth_error_In _ _ E1)).
  pose proof (verify_member_iff (sr_ctx r) s (agg_sum (sr_pubnonces r)) (sr_adaptor r) pk pn (sr_message r) Hwf (nth_error_In _ _ E1)) as HV.
  rewrite (verify_member _ _ _ _ _ _ _ Hwf (nth_error_In _ _ E1)) in HV.
  rewrite <- psig_valid_eq in HV.
  split.
  - intro H. exists pk, pn. split; [reflexivity|]. split; [reflexivity|]. apply HV. destruct (pt_eqb _ _); [reflexivity|discriminate].
  - intros (pk' & pn' & H1 & H2 & H3). assert (pk' = pk) by congruence. assert (pn' = pn) by congruence. subst pk' pn'.
    apply HV in H3. rewrite H3. reflexivity.
Qed.

(** Every outcome of [receive_signature]. *)
Lemma receive_signature_spec r ours hist i s : ctx_wf (sr_ctx r) -> sr_ok r ours hist ->
  let N := nsigners (sr_ctx r) in
  let calls := (sr_index r, ours) :: hist in
  (N <= i /\ receive_signature r i s = (r, Err (RoundContributionError i (OutOfRange N)))) \/
  (i < N /\ sr_check r (i, s) = false /\ receive_signature r i s = (r, Err (RoundContributionError i InvalidSignature))) \/
  (i < N /\ sr_check r (i, s) = true /\ exists w, on_file calls i = Some w /\
     ((s = w /\ receive_signature r i s = (r, Ok tt)) \/
      (s <> w /\ receive_signature r i s = (r, Err (RoundContributionError i InconsistentContribution))))) \/
  (i < N /\ sr_check r (i, s) = true /\ on_file calls i = None /\
     exists sl, receive_signature r i s = (sr_set_slots r sl, Ok tt) /\ sr_ok (sr_set_slots r sl) ours (hist ++ [(i, s)])).
Proof.
  intros Hwf (Hi & HL & HA & Hs) N calls. unfold receive_signature. rewrite get_pubkey_nth.
  destruct (nth_error (pubkeys (sr_ctx r)) i) as [pk|] eqn:E1.
  2:{ left. apply nth_error_None in E1. auto. }
  assert (HiN : i < N) by (apply nth_error_Some; congruence). right.
  destruct (nth_error (sr_pubnonces r) i) as [pn|] eqn:E2.
  2:{ apply nth_error_None in E2. unfold N in HiN. lia. }
  unfold sr_check. cbn [fst snd]. rewrite E1, E2.
  rewrite (verify_member _ _ _ _ _ _ _ Hwf (nth_error_In _ _ E1)).
  destruct (pt_eqb _ _); cbn [is_ok]; [right|left; auto].
  assert (Eta : sr_set_slots r (sr_slots r) = r) by (destruct r; reflexivity).
  destruct (place_spec mscalar_eqb _ _ _ s i Hs) as [[H1 H2]|[(H1 & w & Hw & H2)|(H1 & H2 & s' & H3 & H4)]].
  - unfold N in HiN. lia.
  - left. split; [assumption|]. split; [reflexivity|]. exists w. split; [assumption|]. rewrite H2, Eta.
    destruct (mscalar_eqb s w) eqn:E.
    + left. apply mscalar_eqb_eq in E. auto.
    + right. split; [|reflexivity]. intro HH. apply mscalar_eqb_eq in HH. congruence.
  - right. split; [assumption|]. split; [reflexivity|]. split; [assumption|]. rewrite H3. exists s'. split; [reflexivity|].
    split; [exact Hi|]. split; [exact HL|]. split; [exact HA|]. exact H4.
Qed.

Lemma receive_signature_fields (r : second_round Pr) i s :
  exists sl, fst (receive_signature r i s) = sr_set_slots r sl.
Proof.
  assert (Eta : sr_set_slots r (sr_slots r) = r) by (destruct r; reflexivity).
  unfold receive_signature. destruct (get_pubkey _ _); [|exists (sr_slots r); auto].
  destruct (nth_error _ _); [|exists (sr_slots r); auto].
  destruct (verify_partial_adaptor _ _ _ _ _ _ _); [|exists (sr_slots r); auto|exists (sr_slots r); auto].
  destruct (place _ _ _ _). cbn [fst]. eauto.
Qed.

Lemma sr_check_slots r sl call : sr_check (sr_set_slots r sl) call = sr_check r call.
Proof. reflexivity. Qed.

(** The state after any calls: the valid ones form the history. *)
Lemma sr_run_ok calls : forall r ours hist, ctx_wf (sr_ctx r) -> sr_ok r ours hist ->
  let r' := fst (sr_run r calls) in
  (exists sl, r' = sr_set_slots r sl) /\ sr_ok r' ours (hist ++ filter (sr_check r) calls) /\
  ~ In Panic (snd (sr_run r calls)) /\ length (snd (sr_run r calls)) = length calls.
Proof.
  induction calls as [|[i s] calls IH]; intros r ours hist Hwf Hr.
  - cbn [sr_run fst snd length filter In]. rewrite app_nil_r. split; [exists (sr_slots r); destruct r; reflexivity|]. auto.
  - cbn [sr_run]. pose proof (receive_signature_fields r i s) as [sl0 Hsl0].
    assert (Hr1 : sr_ok (fst (receive_signature r i s)) ours (hist ++ (if sr_check r (i, s) then [(i, s)] else []))
                  /\ snd (receive_signature r i s) <> Panic).
    { destruct (receive_signature_spec r ours hist i s Hwf Hr) as [[H1 ->]|[(H1 & H2 & ->)|[(H1 & H2 & w & Hw & H3)|(H1 & H2 & H3 & sl & -> & H5)]]].
      - cbn [fst snd]. split; [|discriminate]. replace (sr_check r (i, s)) with false; [rewrite app_nil_r; exact Hr|].
        unfold sr_check. cbn [fst]. rewrite (proj2 (nth_error_None _ _)) by exact H1. reflexivity.
      - rewrite H2, app_nil_r. cbn [fst snd]. split; [exact Hr|discriminate].
      - assert (Hfst : fst (receive_signature r i s) = r) by (destruct H3 as [[_ ->]|[_ ->]]; reflexivity).
        assert (Hsnd : snd (receive_signature r i s) <> Panic) by (destruct H3 as [[_ ->]|[_ ->]]; discriminate).
        rewrite Hfst, H2. split; [|exact Hsnd]. destruct Hr as (B1 & B2 & B3 & B4). split; [exact B1|]. split; [exact B2|]. split; [exact B3|].
        eapply slots_ok_ext; [exact B4|]. intros j Hj. rewrite app_comm_cons, on_file_app, on_file_one.
        destruct (on_file ((sr_index r, ours) :: hist) j) eqn:EJ; [reflexivity|]. destruct (Nat.eqb_spec i j); [congruence|reflexivity].
      - rewrite H2. cbn [fst snd]. split; [exact H5|discriminate]. }
    destruct (receive_signature r i s) as [r1 o]. cbn [fst snd] in *. subst r1. destruct Hr1 as [Hr1 Ho].
    specialize (IH (sr_set_slots r sl0) ours _ Hwf Hr1). destruct (sr_run (sr_set_slots r sl0) calls) as [r2 os].
    cbn [fst snd] in *. destruct IH as ((sl & A1) & A2 & A3 & A4).
    split; [exists sl; exact A1|]. split; [|split; [|cbn [length]; congruence]].
    + cbn [filter]. rewrite <- app_assoc in A2. destruct (sr_check r (i, s)); exact A2.
    + intros [H|H]; [contradiction|auto].
Qed.

Lemma session_valid_unique c pns T msg i s s' : session_valid c pns T msg i s -> session_valid c pns T msg i s' -> s = s'.
Proof.
  intros (pk & pn & H1 & H2 & H3) (pk' & pn' & H1' & H2' & H3'). assert (pk' = pk) by congruence. assert (pn' = pn) by congruence.
  subst pk' pn'. rewrite psig_valid_eq in H3, H3'. eapply partial_eq_unique; eassumption.
Qed.

(** *** Started rounds *)

Lemma started_fr r0 : fr_started r0 -> ctx_wf (fr_ctx r0) /\ fr_ok r0 [].
Proof.
  intros (c & seed & i & sp & Hc & H). apply first_round_new_ok in H as (H1 & H2 & H3 & _).
  split; [|assumption]. subst c. apply reachable_wf. assumption.
Qed.

Lemma started_fr_run r0 calls : fr_started r0 ->
  let r := fst (fr_run r0 calls) in
  ctx_wf (fr_ctx r0) /\ fr_ctx r = fr_ctx r0 /\ fr_index r = fr_index r0 /\ fr_secnonce r = fr_secnonce r0 /\
  our_public_nonce r = our_public_nonce r0 /\ fr_ok r calls /\ ~ In Panic (snd (fr_run r0 calls)).
Proof.
  intros H r. apply started_fr in H as [Hwf H]. pose proof (fr_run_ok calls r0 [] H) as (A1 & A2 & A3 & A4 & A5 & _).
  fold r in A1, A2, A3, A4. unfold our_public_nonce. rewrite A3. auto 8.
Qed.

Lemma fr_holdouts_eq r hist : fr_ok r hist ->
  fr_holdouts r = missing (nsigners (fr_ctx r)) ((fr_index r, our_public_nonce r) :: hist).
Proof. intros [_ [_ H]]. exact H. Qed.
Lemma sr_holdouts_eq r ours hist : sr_ok r ours hist ->
  sr_holdouts r = missing (nsigners (sr_ctx r)) ((sr_index r, ours) :: hist).
Proof. intros (_ & _ & _ & _ & H). exact H. Qed.

Lemma missing_own {T} n i (v : T) hist j :
  In j (missing n ((i, v) :: hist)) <-> j < n /\ j <> i /\ ~ exists w, In (j, w) hist.
Proof.
  rewrite missing_In, on_file_cons. destruct (Nat.eqb_spec i j) as [E|E].
  - split; [intros [_ H]; discriminate|]. intros (_ & H & _). congruence.
  - rewrite on_file_None. split.
    + intros [H1 H2]. split; [assumption|]. split; [auto|]. intros [w Hw]. exact (H2 w Hw).
    + intros (H1 & _ & H2). split; [assumption|]. intros w Hw. apply H2. eauto.
Qed.
Lemma missing_nil {T} n i (v : T) hist :
  missing n ((i, v) :: hist) = [] <-> forall j, j < n -> j <> i -> exists w, In (j, w) hist.
Proof.
  split.
  - intros H j H1 H2. destruct (on_file hist j) as [w|] eqn:E; [exists w; apply on_file_In; assumption|].
    assert (HI : In j (missing n ((i, v) :: hist))).
    { apply missing_own. split; [assumption|]. split; [assumption|]. intros [w Hw].
      rewrite on_file_None in E. exact (E w Hw). }
    rewrite H in HI. destruct HI.
  - intro H. destruct (missing n ((i, v) :: hist)) as [|j l] eqn:E; [reflexivity|].
    assert (HI : In j (missing n ((i, v) :: hist))) by (rewrite E; left; reflexivity).
    apply missing_own in HI as (H1 & H2 & H3). destruct H3. auto.
Qed.

Lemma our_signature_ok r ours hist : sr_ok r ours hist -> our_signature r = Ok ours.
Proof.
  intros (Hi & _ & _ & [Hv _]). unfold our_signature. rewrite Hv, nth_map_seq by exact Hi.
  rewrite on_file_cons, Nat.eqb_refl. reflexivity.
Qed.

Lemma started_sr r0 : sr_started r0 -> ctx_wf (sr_ctx r0) /\
  exists sk sn, In (base_mul sk) (pubkeys (sr_ctx r0)) /\
    nth_error (sr_pubnonces r0) (sr_index r0) = Some (public_nonce sn) /\
    let ours := psig_value (sr_ctx r0) sk sn (agg_sum (sr_pubnonces r0)) (sr_adaptor r0) (sr_message r0) in
    sr_ok r0 ours [] /\ our_signature r0 = Ok ours.
Proof.
  intros (r1 & calls & sk & T & msg & Hs & HF).
  pose proof (started_fr_run r1 calls Hs) as (Hwf & E1 & E2 & E3 & E4 & Hok & _).
  set (r := fst (fr_run r1 calls)) in *. rewrite <- E1 in Hwf.
  destruct (fr_finalize_spec r calls sk T msg Hok) as [[_ H]|(_ & pns & HL & HN & H)]; [congruence|].
  destruct (in_pks_dec (base_mul sk) (ordered_pubkeys (fr_ctx r))) as [Hin|Hin].
  2:{ rewrite (sign_nonmember _ _ _ _ _ _ Hwf Hin) in H. congruence. }
  rewrite (sign_member _ _ _ _ _ _ Hwf Hin) in H. destruct H as (sr & H1 & H2 & H3 & H4 & H5 & H6 & H7).
  assert (sr = r0) by congruence. subst sr. rewrite H3, H4, H5, H6, H7. split; [assumption|].
  exists sk, (fr_secnonce r). split; [exact Hin|]. split.
  - rewrite HN by apply Hok. rewrite on_file_cons, Nat.eqb_refl. reflexivity.
  - cbv zeta. split; [exact H2|]. eapply our_signature_ok. exact H2.
Qed.

Lemma sr_run_started r0 ours calls : ctx_wf (sr_ctx r0) -> sr_ok r0 ours [] ->
  let r := fst (sr_run r0 calls) in
  (exists sl, r = sr_set_slots r0 sl) /\ sr_ok r ours (filter (sr_check r0) calls) /\
  ~ In Panic (snd (sr_run r0 calls)) /\ our_signature r = Ok ours.
Proof.
  intros Hwf H r. pose proof (sr_run_ok calls r0 ours [] Hwf H) as (A1 & A2 & A3 & _). fold r in A1, A2.
  split; [exact A1|]. split; [exact A2|]. split; [exact A3|]. eapply our_signature_ok. exact A2.
Qed.

Lemma filter_check r0 ours calls i s : ctx_wf (sr_ctx r0) -> sr_ok r0 ours [] ->
  (In (i, s) (filter (sr_check r0) calls) <-> In (i, s) calls /\ sr_valid r0 i s).
Proof.
  intros Hwf H. rewrite filter_In. unfold sr_valid. rewrite <- (sr_check_valid r0 ours [] i s Hwf H). tauto.
Qed.

(** The final vector of a complete second round. *)
Lemma sr_finalize_spec r ours hist : sr_ok r ours hist ->
  (sr_holdouts r <> [] /\ slots_finalize (sr_slots r) = Err FE_Incomplete) \/
  (sr_holdouts r = [] /\ exists sigs, slots_finalize (sr_slots r) = Ok sigs /\ length sigs = nsigners (sr_ctx r) /\
     forall i, i < nsigners (sr_ctx r) -> nth_error sigs i = on_file ((sr_index r, ours) :: hist) i).
Proof.
  intros (_ & _ & _ & Hs). destruct (finalize_complete _ _ _ Hs) as [(vs & E & Hr & HL & HN)|[E Hr]].
  - right. split; [exact Hr|]. exists vs. auto.
  - left. auto.
Qed.

End RoundFacts.
