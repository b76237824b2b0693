(** Proofs of the theorems of PropertiesNetwork.v. *)
From Coq Require Import String List Arith Lia.
From Verif Require Import Bytes BytesFacts Prims PrimsFacts TaggedHashes Errors SpecTags SpecBIP327
  KeyAgg Nonces Signature Signing SigAgg Bip340 Rounds SpecCtx SpecView SpecSession SpecRounds SpecMachine SpecNetwork Toy ToyData ToyRounds ToyNetwork.
Import ListNotations.
Open Scope list_scope.
Open Scope nat_scope.
From Coq Require Import Sorting.Sorted Permutation.
From Verif Require Import CodecFacts KeyAggFacts KeyAggCodec SigningFacts SpecFacts SpecSigning SessionFacts RoundsFacts
  ProofsSigning ProofsRounds.
Open Scope nat_scope.

(** *** Lists *)
Lemma set_nth_same {A} (l : list A) j p : nth_error l j = Some p -> set_nth l j p = l.
Proof.
  revert j; induction l as [|x l IH]; intros [|j]; cbn [nth_error set_nth]; intro H; try discriminate; [congruence|].
  rewrite IH by exact H. reflexivity.
Qed.
Lemma set_nth_length {A} (l : list A) j p : length (set_nth l j p) = length l.
Proof. revert j; induction l as [|x l IH]; intros [|j]; cbn [set_nth length]; auto. Qed.
Lemma set_nth_get {A} (l : list A) j p i : nth_error (set_nth l j p) i = if (i =? j) && (j <? length l) then Some p else nth_error l i.
Proof.
  revert j i; induction l as [|x l IH]; intros [|j] [|i]; cbn [set_nth nth_error length]; try reflexivity.
  - destruct (S i =? S j); reflexivity.
  - rewrite IH. reflexivity.
Qed.
Lemma sum_set_nth {A} (f : A -> nat) l j p q : nth_error l j = Some p ->
  list_sum (map f l) + f q = list_sum (map f (set_nth l j q)) + f p.
Proof.
  revert j; induction l as [|x l IH]; intros [|j]; cbn [nth_error set_nth map list_sum fold_right]; intro H; try discriminate.
  - injection H as ->. unfold list_sum. lia.
  - specialize (IH j H). unfold list_sum in *. lia.
Qed.
Lemma on_file_map {A} (f : nat -> A) l i : In i l -> on_file (map (fun i => (i, f i)) l) i = Some (f i).
Proof.
  induction l as [|a l IH]; cbn [In map]; [tauto|]. intro H. rewrite on_file_cons. destruct (Nat.eqb_spec a i) as [->|E]; [reflexivity|].
  apply IH. tauto.
Qed.
Lemma SS_NoDup l : StronglySorted lt l -> NoDup l.
Proof.
  induction 1 as [|x l H IH HF]; constructor; [|exact IH]. rewrite Forall_forall in HF. intro F. specialize (HF x F). lia.
Qed.
Lemma removed_length (h h' : list nat) i : NoDup h -> NoDup h' -> In i h ->
  (forall x, In x h' <-> In x h /\ x <> i) -> length h = S (length h').
Proof.
  intros D D' Hi H. change (S (length h')) with (length (i :: h')). apply Permutation_length, NoDup_Permutation; [exact D|constructor|].
  - intro F. apply H in F. tauto.
  - exact D'.
  - intro x. cbn [In]. rewrite H. destruct (Nat.eq_dec x i) as [->|E]; intuition congruence.
Qed.
Lemma fr_run_snoc {Pr : prims} (r : first_round Pr) l i v : fst (fr_run r (l ++ [(i, v)])) = fst (receive_nonce (fst (fr_run r l)) i v).
Proof.
  revert r; induction l as [|[j w] l IH]; intro r; cbn [app fr_run].
  - cbn [fst]. destruct (receive_nonce r i v); reflexivity.
  - destruct (receive_nonce r j w) as [r1 o]. specialize (IH r1). destruct (fr_run r1 (l ++ _)), (fr_run r1 l). exact IH.
Qed.
Lemma sr_run_snoc {Pr : prims} (r : second_round Pr) l i v : fst (sr_run r (l ++ [(i, v)])) = fst (receive_signature (fst (sr_run r l)) i v).
Proof.
  revert r; induction l as [|[j w] l IH]; intro r; cbn [app sr_run].
  - cbn [fst]. destruct (receive_signature r i v); reflexivity.
  - destruct (receive_signature r j w) as [r1 o]. specialize (IH r1). destruct (sr_run r1 (l ++ _)), (sr_run r1 l). exact IH.
Qed.

Lemma sig_eq_dec {Pr : prims} (a b : nat * mscalar Pr) : {a = b} + {a <> b}.
Proof.
  destruct a as [i s], b as [j t]. destruct (Nat.eq_dec i j) as [<-|E]; [|right; congruence].
  destruct (feqb s t) eqn:Q; [left; apply feqb_eq in Q; congruence | right; apply feqb_neq in Q; congruence].
Qed.

Section Net.
Context {Pr : prims} {Laws : prims_ok Pr} {Tags : tags_ok Pr}.
Context (c : key_agg_ctx Pr) (r0 : nat -> first_round Pr) (seed : nat -> bytes) (sp : nat -> spices Pr) (sk : nat -> scalar Pr) (T : @pt Pr) (msg : bytes).
Context (Hc : ctx_reachable c) (Hnew : forall j, j < length (pubkeys c) -> first_round_new c (seed j) j (sp j) = Ok (r0 j))
  (Hsk : forall j pk, nth_error (pubkeys c) j = Some pk -> base_mul (sk j) = pk).
Let n := length (pubkeys c).
Let pn i := our_public_nonce (r0 i).
Let full := map (fun i => (i, pn i)) (seq 0 n).
Let fin j := fr_finalize_adaptor (fst (fr_run (r0 j) full)) (sk j) T msg.
Let pns := map (fun j => our_public_nonce (r0 j)) (seq 0 n).
Let psig j := psig_value c (sk j) (fr_secnonce (r0 j)) (agg_sum pns) T msg.

Lemma full_first j i : j < n -> i < n -> on_file ((j, pn j) :: full) i = Some (pn i).
Proof.
  intros Hj Hi. rewrite on_file_cons. destruct (Nat.eqb_spec j i) as [->|E]; [reflexivity|].
  apply (on_file_map pn). apply in_seq. lia.
Qed.
Lemma net_started j : j < n -> fr_started (r0 j) /\ fr_ctx (r0 j) = c /\ fr_index (r0 j) = j.
Proof.
  intro Hj. split; [exists c, (seed j), j, (sp j); auto|]. pose proof (first_round_new_ok _ _ _ _ _ (Hnew j Hj)). tauto.
Qed.
Lemma net_fin j : j < n -> exists sr, fin j = Ok sr /\ sr_started sr /\ sr_ctx sr = c /\ sr_index sr = j /\
  our_signature sr = Ok (psig j) /\ forall i s, i < n -> (sr_valid sr i s <-> s = psig i).
Proof.
  intro Hj. pose proof (honest_final c r0 seed sp sk (fun _ => full) T msg Hc Hnew Hsk full_first) as HF. cbv zeta in HF.
  destruct (HF j Hj) as (_ & sr & F & G1 & G2 & G3 & G4 & G5 & G6). exists sr. split; [exact F|].
  split; [exists (r0 j), full, (sk j), T, msg; split; [apply net_started; exact Hj | exact F]|].
  split; [exact G1|]. split; [exact G2|]. split; [eapply our_signature_ok; exact G6|].
  intros i s Hi. unfold sr_valid. rewrite G1, G3, G4, G5. destruct (HF i Hi) as [V _]. split.
  - intro H. exact (session_valid_unique _ _ _ _ _ _ _ H V).
  - intros ->. exact V.
Qed.

(** The states a signer can be in. *)
Definition node_ok (j : nat) (p : phase Pr) : Prop :=
  match p with
  | Collecting r => exists l, r = fst (fr_run (r0 j) l) /\ forall i v, In (i, v) l -> v = pn i
  | Signing r => exists sr l, fin j = Ok sr /\ r = fst (sr_run sr l)
  | Consumed => True
  end.
(** What the calls give. *)
Definition entry_ok (j : nat) (e : event Pr) (o : mreply Pr) : Prop :=
  match e with
  | EvNonce i => o = RReceived (Ok tt)
  | EvSign => o = RPartial (Ok (psig j))
  | EvSignature i s =>
      (i < n /\ s = psig i /\ o = RReceived (Ok tt)) \/
      (i < n /\ s <> psig i /\ o = RReceived (Err (RoundContributionError i InvalidSignature))) \/
      (n <= i /\ o = RReceived (Err (RoundContributionError i (OutOfRange n))))
  | EvFinish => exists sr l, fin j = Ok sr /\ sr_is_complete (fst (sr_run sr l)) = true /\ o = RFinal (sr_finalize (fst (sr_run sr l)))
  | EvFinishAdaptor => exists sr l, fin j = Ok sr /\ sr_is_complete (fst (sr_run sr l)) = true /\ o = RFinalAdaptor (sr_finalize_adaptor (fst (sr_run sr l)))
  end.
(** Which event leads into which phase. *)
Definition leads (p : phase Pr) (e : event Pr) (p' : phase Pr) : Prop :=
  match p' with
  | Collecting _ => True
  | Signing _ => e = EvSign \/ exists r, p = Signing r
  | Consumed => (e = EvFinish \/ e = EvFinishAdaptor) /\ exists r, p = Signing r
  end.

Lemma nonce_step j i l : j < n -> i < n -> (forall i v, In (i, v) l -> v = pn i) ->
  let r := fst (fr_run (r0 j) l) in
  let r' := fst (receive_nonce r i (pn i)) in
  snd (receive_nonce r i (pn i)) = Ok tt /\ r' = fst (fr_run (r0 j) (l ++ [(i, pn i)])) /\
  (In i (fr_holdouts r) -> length (fr_holdouts r) = S (length (fr_holdouts r'))) /\
  (~ In i (fr_holdouts r) -> r' = r).
Proof.
  intros Hj Hi Hl r r'. destruct (net_started j Hj) as (Hs & Ec & Ei).
  assert (E : r' = fst (fr_run (r0 j) (l ++ [(i, pn i)]))) by (symmetry; apply fr_run_snoc).
  destruct (C26_first_round_holdouts_proof (r0 j) l Hs) as (S1 & M1 & _).
  destruct (C26_first_round_holdouts_proof (r0 j) (l ++ [(i, pn i)]) Hs) as (S2 & M2 & _).
  fold r in S1, M1. rewrite <- E in S2, M2. rewrite Ec, Ei in M1, M2. fold n in M1, M2.
  split; [|split; [exact E|split]].
  - destruct (C27_first_contribution_wins_proof (r0 j) l i (pn i) Hs) as (_ & B1 & _ & B3 & _). rewrite Ec in B1, B3. fold n r in B1, B3.
    destruct (on_file ((fr_index (r0 j), our_public_nonce (r0 j)) :: l) i) as [w|] eqn:F.
    + assert (w = pn i) as ->; [|rewrite (B1 Hi eq_refl); reflexivity].
      apply on_file_In in F as [F|F]; [|apply (Hl i w F)]. rewrite Ei in F. unfold pn. congruence.
    + apply (B3 Hi eq_refl).
  - intro I. apply (removed_length _ _ i); [apply SS_NoDup; assumption..|exact I|].
    intro x. rewrite M1, M2. split.
    + intros (X1 & X2 & X3). split; [split; [exact X1|split; [exact X2|]]|].
      * intros [v V]. apply X3. exists v. apply in_or_app. auto.
      * intros ->. apply X3. exists (pn i). apply in_or_app. right. left. reflexivity.
    + intros ((X1 & X2 & X3) & X4). split; [exact X1|split; [exact X2|]]. intros [v V].
      apply in_app_or in V as [V|[V|[]]]; [apply X3; eauto | congruence].
  - intro I. rewrite E. apply C28_first_round_order_proof; [exact Hs| |].
    + intros x v Hx Hne. split; [|intro V; apply in_or_app; auto].
      intro V. apply in_app_or in V as [V|[V|[]]]; [exact V|]. injection V as <- <-.
      rewrite Ec in Hx. rewrite Ei in Hne. fold n in Hx.
      destruct (on_file l i) as [w|] eqn:F.
      * apply on_file_In in F. rewrite <- (Hl i w F). exact F.
      * exfalso. apply I, M1. split; [exact Hx|split; [exact Hne|]]. intros [v V]. exact (proj1 (on_file_None _ _) F v V).
    + intros x v w _ _ V W.
      assert (A : forall v, In (x, v) (l ++ [(i, pn i)]) -> v = pn x).
      { intros u U. apply in_app_or in U as [U|[U|[]]]; [exact (Hl x u U) | congruence]. }
      rewrite (A v V), (A w W). reflexivity.
Qed.

Lemma sig_step j i s sr l : j < n -> fin j = Ok sr ->
  let r := fst (sr_run sr l) in
  let r' := fst (receive_signature r i s) in
  entry_ok j (EvSignature i s) (RReceived (snd (receive_signature r i s))) /\ r' = fst (sr_run sr (l ++ [(i, s)])) /\
  (In i (sr_holdouts r) -> s = psig i -> length (sr_holdouts r) = S (length (sr_holdouts r'))) /\
  (In i (sr_holdouts r) /\ s = psig i \/ r' = r).
Proof.
  intros Hj F r r'. destruct (net_fin j Hj) as (sr' & F' & Hs & Ec & Ei & Eo & V). assert (sr' = sr) as -> by congruence.
  assert (E : r' = fst (sr_run sr (l ++ [(i, s)]))) by (symmetry; apply sr_run_snoc).
  destruct (C26_second_round_holdouts_proof sr l Hs) as (S1 & M1 & _).
  destruct (C26_second_round_holdouts_proof sr (l ++ [(i, s)]) Hs) as (S2 & M2 & _).
  fold r in S1, M1. rewrite <- E in S2, M2. rewrite Ec, Ei in M1, M2. fold n in M1, M2.
  destruct (C29_receive_signature_proof sr l i s Hs) as (ours & O1 & _ & R1 & R2 & R3 & _).
  fold r in R1, R2, R3. rewrite Ec in R1, R2, R3. fold n in R1, R2, R3. rewrite Ei in R1. assert (ours = psig j) as -> by congruence.
  split; [|split; [exact E|split]].
  - cbn [entry_ok]. destruct (le_lt_dec n i) as [Hi|Hi]; [right; right; rewrite (R2 Hi); auto|].
    destruct (feqb s (psig i)) eqn:Q.
    + apply feqb_eq in Q. left. split; [exact Hi|]. split; [exact Q|]. f_equal. apply R1.
      split; [exact Hi|]. split; [apply V; assumption|]. intros ->. exact Q.
    + apply feqb_neq in Q. right. left. split; [exact Hi|]. split; [exact Q|]. rewrite (R3 Hi); [reflexivity|]. rewrite V by exact Hi. exact Q.
  - intros I Q. apply (removed_length _ _ i); [apply SS_NoDup; assumption..|exact I|].
    intro x. rewrite M1, M2. split.
    + intros (X1 & X2 & X3). split; [split; [exact X1|split; [exact X2|]]|].
      * intros (v & W & W'). apply X3. exists v. split; [apply in_or_app; auto | exact W'].
      * intros ->. apply X3. exists s. split; [apply in_or_app; right; left; reflexivity|]. apply V; assumption.
    + intros ((X1 & X2 & X3) & X4). split; [exact X1|split; [exact X2|]]. intros (v & W & W').
      apply in_app_or in W as [W|[W|[]]]; [apply X3; eauto | congruence].
  - assert (D : In i (sr_holdouts r) /\ s = psig i \/ ~ (In i (sr_holdouts r) /\ s = psig i)).
    { destruct (in_dec Nat.eq_dec i (sr_holdouts r)); [|tauto]. destruct (feqb s (psig i)) eqn:Q.
      - apply feqb_eq in Q. tauto.
      - apply feqb_neq in Q. tauto. }
    destruct D as [D|D]; [left; exact D | right]. rewrite E. apply C28_second_round_order_proof; [exact Hs|].
    intros x v Hx Hne Hv. rewrite Ec in Hx. rewrite Ei in Hne. fold n in Hx. split; [|intro W; apply in_or_app; auto].
    intro W. apply in_app_or in W as [W|[W|[]]]; [exact W|]. injection W as <- <-. apply V in Hv; [|exact Hx].
    assert (Z : ~ In i (sr_holdouts r)) by tauto. clear D.
    assert (Y : ~ ~ In (i, s) l).
    { intro Y. apply Z, M1. split; [exact Hx|split; [exact Hne|]]. intros (u & U & U'). apply V in U'; [|exact Hx]. apply Y. congruence. }
    destruct (in_dec sig_eq_dec (i, s) l) as [W|W]; [exact W | contradiction].
Qed.

Lemma complete_fr r : fr_is_complete r = true <-> @fr_holdouts Pr r = [].
Proof. unfold fr_is_complete. destruct (fr_holdouts r); split; congruence. Qed.

Lemma sign_step j l : j < n -> (forall i v, In (i, v) l -> v = pn i) ->
  fr_is_complete (fst (fr_run (r0 j) l)) = true -> fst (fr_run (r0 j) l) = fst (fr_run (r0 j) full).
Proof.
  intros Hj Hl H. destruct (net_started j Hj) as (Hs & Ec & Ei).
  destruct (C26_first_round_holdouts_proof (r0 j) l Hs) as (_ & _ & M & _). pose proof (proj1 M H) as H0. clear H M. rename H0 into H. rewrite Ec, Ei in H. fold n in H.
  assert (A : forall i v, In (i, v) full -> v = pn i).
  { intros i v V. apply in_map_iff in V as (x & X & _). congruence. }
  apply C28_first_round_order_proof; [exact Hs| |].
  - intros i v Hi Hne. rewrite Ec in Hi. rewrite Ei in Hne. fold n in Hi. split; intro V.
    + rewrite (Hl i v V). apply in_map_iff. exists i. split; [reflexivity|]. apply in_seq. lia.
    + rewrite (A i v V). destruct (H i Hi Hne) as [w W]. rewrite <- (Hl i w W). exact W.
  - intros i v w _ _ V W. rewrite (Hl i v V), (Hl i w W). reflexivity.
Qed.

Lemma node_step j p e p' o : j < n -> node_ok j p -> ready n p e = true -> mstep p (ev_call r0 sk T msg j e) = Some (p', o) ->
  node_ok j p' /\ entry_ok j e o /\ (p' = p \/ node_todo n p = S (node_todo n p')) /\ leads p e p'.
Proof.
  intros Hj Hp Hr Hm. destruct p as [r|r|].
  - destruct Hp as (l & -> & Hl). destruct e as [i| |i s| |]; cbn [ev_call mstep ready] in *; try discriminate.
    + apply Nat.ltb_lt in Hr. destruct (nonce_step j i l Hj Hr Hl) as (N1 & N2 & N3 & N4). fold (pn i) in Hm.
      destruct (receive_nonce (fst (fr_run (r0 j) l)) i (pn i)) as [r' o'] eqn:E. cbn [fst snd] in *. injection Hm as <- <-.
      split; [|split; [|split]].
      * exists (l ++ [(i, pn i)]). split; [exact N2|]. intros x v V. apply in_app_or in V as [V|[V|[]]]; [exact (Hl x v V) | congruence].
      * cbn [entry_ok]. congruence.
      * cbn [node_todo]. destruct (in_dec Nat.eq_dec i (fr_holdouts (fst (fr_run (r0 j) l)))) as [I|I].
        -- right. specialize (N3 I). lia.
        -- left. rewrite (N4 I). reflexivity.
      * exact I.
    + pose proof (sign_step j l Hj Hl Hr) as E. rewrite E in *. destruct (net_fin j Hj) as (sr & F & Hs & Ec & Ei & Eo & V).
      pose proof F as F'. unfold fin in F'. rewrite F', Eo in Hm. injection Hm as <- <-. split; [|split; [|split]].
      * exists sr, []. split; [exact F | reflexivity].
      * reflexivity.
      * right. cbn [node_todo]. apply complete_fr in Hr. rewrite Hr. cbn [length].
        destruct (C26_second_round_holdouts_proof sr [] Hs) as (S1 & M1 & _). cbn [sr_run fst] in S1, M1. rewrite Ec, Ei in M1. fold n in M1.
        assert (L : length (seq 0 n) = S (length (sr_holdouts sr))); [|rewrite seq_length in L; lia].
        apply (removed_length _ _ j); [apply seq_NoDup | apply SS_NoDup; exact S1 | apply in_seq; lia |].
        intro x. rewrite M1, in_seq. split.
        -- intros (X1 & X2 & _). split; [lia | exact X2].
        -- intros (X1 & X2). split; [lia|]. split; [exact X2|]. intros (s & [] & _).
      * left. reflexivity.
  - destruct Hp as (sr & l & F & ->). destruct e as [i| |i s| |]; cbn [ev_call mstep ready] in *; try discriminate.
    + destruct (sig_step j i s sr l Hj F) as (N1 & N2 & N3 & N4).
      destruct (receive_signature (fst (sr_run sr l)) i s) as [r' o'] eqn:E. cbn [fst snd] in *. injection Hm as <- <-.
      split; [|split; [|split]].
      * exists sr, (l ++ [(i, s)]). auto.
      * exact N1.
      * cbn [node_todo]. destruct N4 as [[I Q]| ->]; [right|left; reflexivity]. specialize (N3 I Q). lia.
      * right. eauto.
    + injection Hm as <- <-. split; [exact I|]. split; [exists sr, l; auto|]. split.
      * right. cbn [node_todo]. unfold sr_is_complete in Hr. destruct (sr_holdouts _); [reflexivity | discriminate].
      * split; [auto|eauto].
    + injection Hm as <- <-. split; [exact I|]. split; [exists sr, l; auto|]. split.
      * right. cbn [node_todo]. unfold sr_is_complete in Hr. destruct (sr_holdouts _); [reflexivity | discriminate].
      * split; [auto|eauto].
  - destruct e; discriminate.
Qed.

(** The invariant of all executions. *)
Definition net_ok (N : net Pr) : Prop :=
  length (phases N) = n /\
  (forall j p, nth_error (phases N) j = Some p -> node_ok j p /\
     match p with
     | Collecting _ => True
     | Signing _ => In (j, EvSign, RPartial (Ok (psig j))) (net_log N)
     | Consumed => In (j, EvSign, RPartial (Ok (psig j))) (net_log N) /\
         exists o, In (j, EvFinish, o) (net_log N) \/ In (j, EvFinishAdaptor, o) (net_log N)
     end) /\
  (forall j e o, In (j, e, o) (net_log N) -> j < n /\ entry_ok j e o).

Lemma start_ok : net_ok (net_start n r0).
Proof.
  unfold net_start. split; [cbn [phases]; rewrite map_length, seq_length; reflexivity|]. split; [|intros j e o []].
  intros j p H. cbn [phases] in H. assert (Hj : j < n).
  { assert (j < length (map (fun j => Collecting (r0 j)) (seq 0 n))) by (apply nth_error_Some; congruence).
    rewrite map_length, seq_length in *. assumption. }
  rewrite (nth_map_seq (fun j => Collecting (r0 j))) in H by exact Hj. injection H as <-.
  split; [|exact I]. exists []. split; [reflexivity|]. intros i v [].
Qed.

Lemma step_ok N j e N' : net_ok N -> net_step n r0 sk T msg N j e = Some N' ->
  net_ok N' /\ (phases N' = phases N \/ net_todo n N = S (net_todo n N')) /\ exists p p' o,
    nth_error (phases N) j = Some p /\ mstep p (ev_call r0 sk T msg j e) = Some (p', o) /\ N' = Net (set_nth (phases N) j p') (net_log N ++ [(j, e, o)]).
Proof.
  intros (HL & HP & HE). unfold net_step. destruct (nth_error (phases N) j) as [p|] eqn:Ep; [|discriminate].
  destruct (ready n p e) eqn:Er; [|discriminate]. destruct (mstep p (ev_call r0 sk T msg j e)) as [[p' o]|] eqn:Em; [|discriminate].
  intro H; injection H as <-. assert (Hj : j < n) by (rewrite <- HL; apply nth_error_Some; congruence).
  destruct (HP j p Ep) as [Hp Hlog]. destruct (node_step j p e p' o Hj Hp Er Em) as (Hp' & He & Ht & Hd).
  split; [|split; [|exists p, p', o; auto]].
  - split; [cbn [phases]; rewrite set_nth_length; exact HL|]. cbn [phases net_log]. split.
    + intros i q Hq. rewrite set_nth_get in Hq. destruct ((i =? j) && (j <? length (phases N))) eqn:B.
      * apply andb_true_iff in B as [B _]. apply Nat.eqb_eq in B. subst i. injection Hq as <-. split; [exact Hp'|].
        destruct p' as [r|r|]; cbn [leads] in Hd; [exact I| |].
        -- apply in_or_app. destruct Hd as [->|[r' ->]].
           ++ right. left. cbn [entry_ok] in He. congruence.
           ++ left. exact Hlog.
        -- destruct Hd as (D & r & ->). split; [apply in_or_app; left; exact Hlog|].
           exists o. destruct D as [-> | ->]; [left | right]; apply in_or_app; right; left; reflexivity.
      * destruct (HP i q Hq) as [Q1 Q2]. split; [exact Q1|]. destruct q as [r|r|]; [exact I| apply in_or_app; auto |].
        destruct Q2 as (Q2 & o' & Q3). split; [apply in_or_app; auto|]. exists o'. destruct Q3; [left|right]; apply in_or_app; auto.
    + intros i e' o' Hin. apply in_app_or in Hin as [Hin|[Hin|[]]]; [exact (HE i e' o' Hin)|].
      injection Hin as <- <- <-. auto.
  - cbn [phases]. unfold net_todo. cbn [phases]. destruct Ht as [->|Ht].
    + left. apply set_nth_same. exact Ep.
    + right. pose proof (sum_set_nth (node_todo n) (phases N) j p p' Ep). lia.
Qed.

Lemma run_ok evs : forall N, net_ok N -> net_ok (net_run n r0 sk T msg N evs).
Proof.
  induction evs as [|[j e] evs IH]; intros N HN; unfold net_run; cbn [fold_left fst snd]; [exact HN|].
  apply IH. destruct (net_step n r0 sk T msg N j e) as [N'|] eqn:E; [|exact HN]. apply (step_ok N j e N' HN E).
Qed.

Lemma sum_zero l : list_sum l = 0 <-> forall x, In x l -> x = 0.
Proof.
  induction l as [|a l IH]; cbn [list_sum fold_right In].
  - split; [intros _ x [] | reflexivity].
  - fold (list_sum l). split.
    + intros H x [<-|Hx]; [lia|]. apply IH; [lia | exact Hx].
    + intro H. rewrite (H a) by auto. apply IH. intros x Hx. apply H. auto.
Qed.

Lemma todo_zero N : net_ok N -> (net_todo n N = 0 <-> forall j, j < n -> nth_error (phases N) j = Some Consumed).
Proof.
  intros (HL & _). unfold net_todo. rewrite sum_zero. split.
  - intros H j Hj. destruct (nth_error (phases N) j) as [p|] eqn:E; [|apply nth_error_None in E; lia].
    assert (Z : node_todo n p = 0) by (apply H, in_map, (nth_error_In _ j); exact E).
    destruct p; cbn [node_todo] in Z; [lia | lia | reflexivity].
  - intros H x Hx. apply in_map_iff in Hx as (p & <- & Hp). apply In_nth_error in Hp as [j E].
    assert (Hj : j < n) by (rewrite <- HL; apply nth_error_Some; congruence). rewrite (H j Hj) in E. injection E as <-. reflexivity.
Qed.

(** A signer that has not finished can go on, or waits for one that can. *)
Lemma first_possible N j r : net_ok N -> nth_error (phases N) j = Some (Collecting r) ->
  exists e N', genuine N e /\ net_step n r0 sk T msg N j e = Some N' /\ net_todo n N = S (net_todo n N').
Proof.
  intros HN E. pose proof HN as (HL & HP & _). assert (Hj : j < n) by (rewrite <- HL; apply nth_error_Some; congruence).
  destruct (HP j _ E) as [(l & Er & Hl) _]. destruct (net_started j Hj) as (Hs & Ec & Ei).
  destruct (fr_holdouts r) as [|i h] eqn:Eh.
  - assert (Hcm : fr_is_complete r = true) by (apply complete_fr; exact Eh).
    pose proof (sign_step j l Hj Hl) as Q. rewrite <- Er in Q. specialize (Q Hcm).
    destruct (net_fin j Hj) as (sr & F & Hs2 & _ & _ & Eo & _).
    assert (St : net_step n r0 sk T msg N j EvSign = Some (Net (set_nth (phases N) j (Signing sr)) (net_log N ++ [(j, EvSign, RPartial (Ok (psig j)))]))).
    { unfold net_step. rewrite E. cbn [ready ev_call mstep]. rewrite Hcm, Q. unfold fin in F. rewrite F, Eo. reflexivity. }
    eexists EvSign, _. split; [exact I|]. split; [exact St|].
    destruct (step_ok _ _ _ _ HN St) as (_ & [X|X] & _); [|exact X]. exfalso. cbn [phases] in X.
    assert (Y : nth_error (set_nth (phases N) j (Signing sr)) j = Some (Collecting r)) by (rewrite X; exact E).
    rewrite set_nth_get, Nat.eqb_refl in Y. rewrite (proj2 (Nat.ltb_lt j (length (phases N)))) in Y by lia. discriminate.
  - destruct (C26_first_round_holdouts_proof (r0 j) l Hs) as (_ & M & _). rewrite <- Er, Ec, Ei in M. fold n in M.
    assert (I0 : In i (fr_holdouts r)) by (rewrite Eh; left; reflexivity). destruct (proj1 (M i) I0) as (Hi & _).
    destruct (nonce_step j i l Hj Hi Hl) as (N1 & N2 & N3 & _). rewrite <- Er in N1, N2, N3.
    exists (EvNonce i). eexists. split; [exact I|]. split.
    { unfold net_step. rewrite E. cbn [ready ev_call mstep]. rewrite (proj2 (Nat.ltb_lt i n)) by exact Hi. fold (pn i).
      rewrite (surjective_pairing (receive_nonce r i (pn i))). reflexivity. }
    unfold net_todo. cbn [phases].
    pose proof (sum_set_nth (node_todo n) (phases N) j _ (Collecting (fst (receive_nonce r i (pn i)))) E) as S0.
    cbn [node_todo] in S0. specialize (N3 I0). lia.
Qed.

Lemma second_possible N j r : net_ok N -> nth_error (phases N) j = Some (Signing r) ->
  (forall i, i < n -> In (i, EvSign, RPartial (Ok (psig i))) (net_log N)) ->
  exists e N', genuine N e /\ net_step n r0 sk T msg N j e = Some N' /\ net_todo n N = S (net_todo n N').
Proof.
  intros HN E HG. pose proof HN as (HL & HP & _). assert (Hj : j < n) by (rewrite <- HL; apply nth_error_Some; congruence).
  destruct (HP j _ E) as [(sr & l & F & Er) _]. destruct (net_fin j Hj) as (sr' & F' & Hs & Ec & Ei & Eo & V).
  assert (sr' = sr) as -> by congruence.
  destruct (sr_holdouts r) as [|i h] eqn:Eh.
  - assert (Hcm : sr_is_complete r = true) by (unfold sr_is_complete; rewrite Eh; reflexivity).
    exists EvFinish. eexists. split; [exact I|]. split.
    { unfold net_step. rewrite E. cbn [ready ev_call mstep]. rewrite Hcm. reflexivity. }
    unfold net_todo. cbn [phases]. pose proof (sum_set_nth (node_todo n) (phases N) j _ Consumed E) as S0.
    cbn [node_todo] in S0. rewrite Eh in S0. cbn [length] in S0. lia.
  - destruct (C26_second_round_holdouts_proof sr l Hs) as (_ & M & _). rewrite <- Er, Ec, Ei in M. fold n in M.
    assert (I0 : In i (sr_holdouts r)) by (rewrite Eh; left; reflexivity). destruct (proj1 (M i) I0) as (Hi & _).
    destruct (sig_step j i (psig i) sr l Hj F) as (_ & _ & N3 & _). rewrite <- Er in N3.
    exists (EvSignature i (psig i)). eexists. split; [apply HG; exact Hi|]. split.
    { unfold net_step. rewrite E. cbn [ready ev_call mstep].
      rewrite (surjective_pairing (receive_signature r i (psig i))). reflexivity. }
    unfold net_todo. cbn [phases].
    pose proof (sum_set_nth (node_todo n) (phases N) j _ (Signing (fst (receive_signature r i (psig i)))) E) as S0.
    cbn [node_todo] in S0. specialize (N3 I0 eq_refl). lia.
Qed.

Lemma can_go_on N : net_ok N -> net_todo n N <> 0 ->
  exists j e N', genuine N e /\ net_step n r0 sk T msg N j e = Some N' /\ net_todo n N = S (net_todo n N').
Proof.
  intros HN Hz. pose proof HN as (HL & HP & _).
  set (is_first := fun p : phase Pr => match p with Collecting _ => true | _ => false end).
  set (is_second := fun p : phase Pr => match p with Signing _ => true | _ => false end).
  destruct (existsb is_first (phases N)) eqn:E1.
  { apply existsb_exists in E1 as (p & Hp & Q). destruct p; try discriminate. apply In_nth_error in Hp as [j Hp].
    exists j. eapply first_possible; eassumption. }
  assert (A : forall j p, nth_error (phases N) j = Some p -> In (j, EvSign, RPartial (Ok (psig j))) (net_log N)).
  { intros j p Hp. destruct p as [r|r|].
    - exfalso. assert (existsb is_first (phases N) = true); [|congruence]. apply existsb_exists. exists (Collecting r).
      split; [eapply nth_error_In; exact Hp | reflexivity].
    - apply (HP j _ Hp).
    - apply (HP j _ Hp). }
  destruct (existsb is_second (phases N)) eqn:E2.
  { apply existsb_exists in E2 as (p & Hp & Q). destruct p; try discriminate. apply In_nth_error in Hp as [j Hp].
    exists j. eapply second_possible; [eassumption..|]. intros i Hi.
    destruct (nth_error (phases N) i) as [q|] eqn:Eq; [|apply nth_error_None in Eq; lia]. exact (A i q Eq). }
  exfalso. apply Hz, (todo_zero N HN). intros j Hj. destruct (nth_error (phases N) j) as [p|] eqn:Ep; [|apply nth_error_None in Ep; lia].
  destruct p as [r|r|]; [| |reflexivity]; exfalso.
  - assert (existsb is_first (phases N) = true); [|congruence]. apply existsb_exists. exists (Collecting r).
    split; [eapply nth_error_In; exact Ep | reflexivity].
  - assert (existsb is_second (phases N) = true); [|congruence]. apply existsb_exists. exists (Signing r).
    split; [eapply nth_error_In; exact Ep | reflexivity].
Qed.

Lemma can_finish k : forall N, net_ok N -> net_todo n N = k -> exists evs, length evs = k /\ net_todo n (net_run n r0 sk T msg N evs) = 0.
Proof.
  induction k as [|k IH]; intros N HN Hk; [exists []; auto|].
  destruct (can_go_on N HN ltac:(lia)) as (j & e & N' & _ & St & Ht).
  destruct (IH N' (proj1 (step_ok _ _ _ _ HN St)) ltac:(lia)) as (evs & L & Z).
  exists ((j, e) :: evs). split; [cbn [length]; lia|]. unfold net_run in *. cbn [fold_left fst snd]. rewrite St. exact Z.
Qed.

Lemma start_todo : net_todo n (net_start n r0) = 2 * n * n.
Proof.
  unfold net_todo, net_start. cbn [phases]. rewrite map_map.
  assert (G : forall l, (forall j, In j l -> j < n) -> list_sum (map (fun j => node_todo n (Collecting (r0 j))) l) = 2 * n * length l).
  { induction l as [|j l IH]; intro Hl; cbn [map list_sum fold_right length]; [lia|]. fold (list_sum (map (fun j => node_todo n (Collecting (r0 j))) l)).
    rewrite IH by (intros x Hx; apply Hl; right; exact Hx). assert (Hj : j < n) by (apply Hl; left; reflexivity).
    destruct (net_started j Hj) as (Hs & Ec & Ei). destruct (C26_first_round_holdouts_proof (r0 j) [] Hs) as (S1 & M & _).
    cbn [fr_run fst] in S1, M. rewrite Ec, Ei in M. fold n in M. cbn [node_todo].
    assert (L : length (seq 0 n) = S (length (fr_holdouts (r0 j)))); [|rewrite seq_length in L; lia].
    apply (removed_length _ _ j); [apply seq_NoDup | apply SS_NoDup; exact S1 | apply in_seq; lia |].
    intro x. rewrite M, in_seq. split.
    - intros (X1 & X2 & _). split; [lia | exact X2].
    - intros (X1 & X2). split; [lia|]. split; [exact X2|]. intros (s & []). }
  rewrite G by (intros j Hj; apply in_seq in Hj; lia). rewrite seq_length. reflexivity.
Qed.
End Net.

Section C76_replies.
Context {Pr : prims}.
Add Ring ring_C76_replies : (fe_ring_theory (n := @ord Pr)).
Lemma C76_replies_proof {Laws : prims_ok Pr} {Tags : tags_ok Pr} (c : key_agg_ctx Pr) (r0 : nat -> first_round Pr) (seed : nat -> bytes) (sp : nat -> spices Pr) (sk : nat -> scalar Pr) (T : pt) (msg : bytes) (evs : list (nat * event Pr)) (Hc : ctx_reachable c) (Hnew : forall j, j < length (pubkeys c) -> first_round_new c (seed j) j (sp j) = Ok (r0 j)) (Hsk : forall j pk, nth_error (pubkeys c) j = Some pk -> base_mul (sk j) = pk) :
  let n := length (pubkeys c) in
  let log := net_log (net_run n r0 sk T msg (net_start n r0) evs) in
  forall j e o, In (j, e, o) log -> ~ panicked o /\
    match e with
    | EvNonce _ => o = RReceived (Ok tt)
    | EvSign => exists s, o = RPartial (Ok s)
    | EvSignature i s => (n <= i /\ o = RReceived (Err (RoundContributionError i (OutOfRange n)))) \/
        (i < n /\ (o = RReceived (Ok tt) \/ o = RReceived (Err (RoundContributionError i InvalidSignature))) /\
         forall s', In (i, EvSign, RPartial (Ok s')) log -> (o = RReceived (Ok tt) <-> s = s'))
    | EvFinish => exists o', o = RFinal o'
    | EvFinishAdaptor => exists o', o = RFinalAdaptor o'
    end.
Proof.
  intros n log j e o H.
  pose proof (run_ok c r0 seed sp sk T msg Hc Hnew Hsk evs _ (start_ok c r0 sk T msg)) as (_ & _ & HE). fold n log in HE.
  pose proof (HE j e o H) as [Hj Q]. split.
  - intro P. destruct e as [i| |i s| |]; cbn [entry_ok] in Q.
    + subst o. destruct P as [P|[P|[P|[P|P]]]]; discriminate.
    + subst o. destruct P as [P|[P|[P|[P|P]]]]; discriminate.
    + destruct Q as [(_ & _ & ->)|[(_ & _ & ->)|(_ & ->)]]; destruct P as [P|[P|[P|[P|P]]]]; discriminate.
    + destruct Q as (sr & l & F & _ & ->). destruct P as [P|[P|[P|[P|P]]]]; try discriminate. injection P as P.
      destruct (net_fin c r0 seed sp sk T msg Hc Hnew Hsk j Hj) as (sr' & F' & Hs & _). assert (sr' = sr) as -> by congruence.
      destruct (C30_second_finalize_proof sr l Hs) as (_ & _ & _ & _ & _ & _ & X). exact (X P).
    + destruct Q as (sr & l & F & _ & ->). destruct P as [P|[P|[P|[P|P]]]]; try discriminate. injection P as P.
      destruct (net_fin c r0 seed sp sk T msg Hc Hnew Hsk j Hj) as (sr' & F' & Hs & _). assert (sr' = sr) as -> by congruence.
      destruct (C30_second_finalize_proof sr l Hs) as (_ & _ & _ & _ & _ & X & _). exact (X P).
  - destruct e as [i| |i s| |]; cbn [entry_ok] in Q.
    + exact Q.
    + eexists. exact Q.
    + destruct Q as [(Hi & Es & ->)|[(Hi & Es & ->)|(Hi & ->)]]; [right|right|left; auto].
      * split; [exact Hi|]. split; [left; reflexivity|]. intros s' Hs. destruct (HE _ _ _ Hs) as [_ X]. cbn [entry_ok] in X.
        injection X as ->. split; [intros _; exact Es | reflexivity].
      * split; [exact Hi|]. split; [right; reflexivity|]. intros s' Hs. destruct (HE _ _ _ Hs) as [_ X]. cbn [entry_ok] in X.
        injection X as ->. split; [discriminate | intro Y; contradiction].
    + destruct Q as (sr & l & _ & _ & ->). eauto.
    + destruct Q as (sr & l & _ & _ & ->). eauto.
Qed.
End C76_replies.

Section C76_agreement.
Context {Pr : prims}.
Add Ring ring_C76_agreement : (fe_ring_theory (n := @ord Pr)).
Lemma C76_agreement_proof {Laws : prims_ok Pr} {Tags : tags_ok Pr} (c : key_agg_ctx Pr) (r0 : nat -> first_round Pr) (seed : nat -> bytes) (sp : nat -> spices Pr) (sk : nat -> scalar Pr) (T : pt) (msg : bytes) (Hc : ctx_reachable c) (Hnew : forall j, j < length (pubkeys c) -> first_round_new c (seed j) j (sp j) = Ok (r0 j)) (Hsk : forall j pk, nth_error (pubkeys c) j = Some pk -> base_mul (sk j) = pk) :
  let n := length (pubkeys c) in
  let Q := aggregated_pubkey c in
  let R' := spec_R_raw c (agg_sum (map (fun j => our_public_nonce (r0 j)) (seq 0 n))) msg in
  let log := fun evs => net_log (net_run n r0 sk T msg (net_start n r0) evs) in
  (R' <> pt_O -> exists sg l,
     verify_single_adaptor Q sg msg T = Ok tt /\
     (forall t l', T = gmul t -> adapt sg t = Some l' -> verify_single_lifted Q l' msg = Ok tt) /\
     (T = pt_O -> verify_single_lifted Q l msg = Ok tt /\
                  schnorr_verify msg (xbytes Q) (lifted_to_bytes l) = Ret true) /\
     (forall evs j o, In (j, EvFinish, o) (log evs) -> o = RFinal (Ok l)) /\
     (forall evs j o, In (j, EvFinishAdaptor, o) (log evs) -> o = RFinalAdaptor (Ok sg))) /\
  (R' = pt_O -> forall evs j o,
     (In (j, EvFinish, o) (log evs) -> o = RFinal (Err (FE_InvalidAggregatedSignature VE_BadSignature))) /\
     (In (j, EvFinishAdaptor, o) (log evs) -> o = RFinalAdaptor (Err (FE_InvalidAggregatedSignature VE_BadSignature)))).
Proof.
  intros n Q R' log.
  assert (HE : forall evs j e o, In (j, e, o) (log evs) -> j < n /\ entry_ok c r0 sk T msg j e o).
  { intro evs. apply (run_ok c r0 seed sp sk T msg Hc Hnew Hsk evs _ (start_ok c r0 sk T msg)). }
  destruct (C31_honest_sessions_agree_proof c r0 seed sp sk (fun _ => map (fun i => (i, our_public_nonce (r0 i))) (seq 0 (length (pubkeys c)))) T msg Hc Hnew Hsk
     (full_first c r0)) as (_ & _ & A & B). fold n in A, B. fold Q R' in A, B. split; intro HR.
  - destruct (A HR) as (sg & l & _ & _ & V1 & V2 & V3 & V4). exists sg, l. repeat (split; [assumption|]). split.
    + intros evs j o H. destruct (HE evs j _ o H) as [Hj (sr & k & F & Hcm & ->)]. f_equal. apply (V4 j sr k Hj F Hcm).
    + intros evs j o H. destruct (HE evs j _ o H) as [Hj (sr & k & F & Hcm & ->)]. f_equal. apply (V4 j sr k Hj F Hcm).
  - intros evs j o. split; intro H; destruct (HE evs j _ o H) as [Hj (sr & k & F & Hcm & ->)]; f_equal.
    + unfold sr_finalize. rewrite (B HR j sr k Hj F Hcm). reflexivity.
    + exact (B HR j sr k Hj F Hcm).
Qed.
End C76_agreement.

Section C76_progress.
Context {Pr : prims}.
Add Ring ring_C76_progress : (fe_ring_theory (n := @ord Pr)).
Lemma C76_progress_proof {Laws : prims_ok Pr} {Tags : tags_ok Pr} (c : key_agg_ctx Pr) (r0 : nat -> first_round Pr) (seed : nat -> bytes) (sp : nat -> spices Pr) (sk : nat -> scalar Pr) (T : pt) (msg : bytes) (evs : list (nat * event Pr)) (Hc : ctx_reachable c) (Hnew : forall j, j < length (pubkeys c) -> first_round_new c (seed j) j (sp j) = Ok (r0 j)) (Hsk : forall j pk, nth_error (pubkeys c) j = Some pk -> base_mul (sk j) = pk) :
  let n := length (pubkeys c) in
  let N0 := net_start n r0 in
  let N := net_run n r0 sk T msg N0 evs in
  net_todo n N0 = 2 * n * n /\
  (forall j e N', net_step n r0 sk T msg N j e = Some N' -> phases N' = phases N \/ net_todo n N = S (net_todo n N')) /\
  (net_todo n N <> 0 -> exists j e N', genuine N e /\ net_step n r0 sk T msg N j e = Some N' /\ net_todo n N = S (net_todo n N')) /\
  (net_todo n N = 0 <-> forall j, j < n -> nth_error (phases N) j = Some Consumed) /\
  (forall j, nth_error (phases N) j = Some Consumed -> exists o, In (j, EvFinish, o) (net_log N) \/ In (j, EvFinishAdaptor, o) (net_log N)) /\
  (exists evs', length evs' = net_todo n N /\ net_todo n (net_run n r0 sk T msg N evs') = 0).
Proof.
  intros n N0 N.
  pose proof (run_ok c r0 seed sp sk T msg Hc Hnew Hsk evs _ (start_ok c r0 sk T msg)) as HN. fold n N0 N in HN.
  split; [eapply start_todo; eassumption|]. split; [|split; [|split; [|split]]].
  - intros j e N' St. exact (proj1 (proj2 (step_ok c r0 seed sp sk T msg Hc Hnew Hsk N j e N' HN St))).
  - exact (can_go_on c r0 seed sp sk T msg Hc Hnew Hsk N HN).
  - exact (todo_zero c r0 sk T msg N HN).
  - intros j Hp. destruct HN as (_ & HP & _). destruct (HP j _ Hp) as (_ & _ & X). exact X.
  - exact (can_finish c r0 seed sp sk T msg Hc Hnew Hsk _ N HN eq_refl).
Qed.
End C76_progress.
