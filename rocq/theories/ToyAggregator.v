(** Toy sessions with an aggregator, for the examples of PropertiesAggregator.v. *)
From Coq Require Import List Arith Lia.
From Verif Require Import Bytes Prims PrimsFacts Errors KeyAgg Nonces Signature Signing SigAgg Rounds SpecRounds SpecMachine
  Toy ToyData ToyRounds RoundsFacts.
Import ListNotations.
Local Open Scope nat_scope.

(** The three public nonces. *)
Definition toy_three : list (pub_nonce Toy) := [toy_pn 0; toy_pn 1; toy_pn 2].
(** The nonces delivered to the signers; signer 1 is sent wrong ones. *)
Definition toy_heard (j : nat) : list (nat * pub_nonce Toy) :=
  match j with
  | 0 => []
  | 1 => [(0, toy_pn 2); (7, toy_pn 0)]
  | _ => [(1, toy_pn 1); (0, toy_pn 0); (0, toy_pn 1)]
  end.
(** Signers 0 and 1 sign for an aggregator, signer 2 with its peers. *)
Definition toy_mixed (j : nat) : list (mcall Toy) :=
  map (fun p => CNonce (fst p) (snd p)) (toy_heard j) ++
  match j with
  | 2 => [CSign (toy_sk 2) pt_O toy_msg; CSignature 1 (toy_s 1); CSignature 0 (toy_s 0); CFinish]
  | _ => [CSignFor (toy_sk j) pt_O toy_msg (agg_sum toy_three); CFinish]
  end.
(** What the aggregator tells signer [j] the aggregated nonce is: not the sum, for signer 1. *)
Definition toy_told_an (j : nat) : agg_nonce Toy :=
  agg_sum (if j =? 1 then [toy_pn 0; toy_pn 1; toy_pn 1] else toy_three).
(** All signers sign what they are told. *)
Definition toy_told (j : nat) : list (mcall Toy) :=
  map (fun p => CNonce (fst p) (snd p)) [] ++ [CSignFor (toy_sk j) pt_O toy_msg (toy_told_an j); CFinish].
(** Their partial signatures. *)
Definition toy_told_s (j : nat) : mscalar Toy :=
  match sign_for_aggregator_adaptor (toy_r0 j) (toy_sk j) pt_O toy_msg (toy_told_an j) with Ok s => s | _ => fzero end.

Lemma toy_round_ctx i : i < 3 -> fr_ctx (toy_r0 i) = toy_c.
Proof. intro H. apply (first_round_new_ok _ _ _ _ _ (toy_r0_eq i H)). Qed.
Lemma toy_r0_index i : i < 3 -> fr_index (toy_r0 i) = i.
Proof. intro H. apply (first_round_new_ok _ _ _ _ _ (toy_r0_eq i H)). Qed.
Lemma toy_keys_nth j : j < 3 -> nth_error (pubkeys toy_c) j = Some (base_mul (toy_sk j)).
Proof.
  intro H. assert (EP : map base_mul toy_sks = pubkeys toy_c) by (symmetry; apply (map_base_toy toy_sks); vm_compute; reflexivity).
  rewrite <- EP, nth_error_map. destruct j as [|[|[|j]]]; [reflexivity..|lia].
Qed.

Section Lives.
Context {Pr : prims}.
Lemma mrun_nonces (ncs : list (nat * pub_nonce Pr)) rest : forall r, exists os,
  snd (mrun (Collecting r) (map (fun p => CNonce (fst p) (snd p)) ncs ++ rest))
  = map (fun p => (CNonce (fst (fst p)) (snd (fst p)), RReceived (snd p))) (combine ncs os)
    ++ snd (mrun (Collecting (fst (fr_run r ncs))) rest) /\ length os = length ncs.
Proof.
  induction ncs as [|[i n] ncs IH]; intro r; [exists []; split; reflexivity|].
  cbn [map fst snd app mrun mstep fr_run]. destruct (receive_nonce r i n) as [r1 o].
  destruct (IH r1) as (os & E & L). destruct (mrun (Collecting r1) _) as [p2 log]. cbn [snd] in *.
  destruct (fr_run r1 ncs) as [r2 os2]. exists (o :: os). cbn [fst snd combine map app length]. rewrite E, L. split; reflexivity.
Qed.
Lemma released_for (r : first_round Pr) ncs sk T msg an s rest :
  match sign_for_aggregator_adaptor (fst (fr_run r ncs)) sk T msg an with Ok x => feqb x s | _ => false end = true ->
  released r (snd (mrun (Collecting r) (map (fun p => CNonce (fst p) (snd p)) ncs ++ CSignFor sk T msg an :: rest))) sk T msg an s.
Proof.
  intro H. left. destruct (mrun_nonces ncs (CSignFor sk T msg an :: rest) r) as (os & -> & _). apply in_app_iff. right.
  cbn [mrun mstep]. destruct (mrun Consumed rest) as [p2 log]. cbn [snd]. left. f_equal. f_equal.
  destruct (sign_for_aggregator_adaptor _ _ _ _ _) as [x| |]; [|discriminate|discriminate]. f_equal. apply feqb_eq. exact H.
Qed.
Lemma signing_no_nonces rest : forall sr : second_round Pr, nonces_of (snd (mrun (Signing sr) rest)) = [].
Proof.
  assert (C : forall l, snd (mrun (Pr := Pr) Consumed l) = []) by (induction l as [|k l IH]; [reflexivity | destruct k; exact IH]).
  induction rest as [|k rest IH]; intro sr; [reflexivity|].
  destruct k; cbn [mrun mstep]; try apply IH.
  - destruct (receive_signature sr i s) as [r1 o]. specialize (IH r1). destruct (mrun (Signing r1) rest). exact IH.
  - specialize (C rest). destruct (mrun Consumed rest). cbn [snd] in *. subst. reflexivity.
  - specialize (C rest). destruct (mrun Consumed rest). cbn [snd] in *. subst. reflexivity.
Qed.
Lemma released_peers (r : first_round Pr) ncs sk T msg sr pns s rest :
  fr_finalize_adaptor (fst (fr_run r ncs)) sk T msg = Ok sr -> our_signature sr = Ok s ->
  length pns = length (pubkeys (fr_ctx r)) ->
  (forall j, j < length pns -> nth_error pns j = on_file ((fr_index r, our_public_nonce r) :: ncs) j) ->
  released r (snd (mrun (Collecting r) (map (fun p => CNonce (fst p) (snd p)) ncs ++ CSign sk T msg :: rest))) sk T msg (agg_sum pns) s.
Proof.
  intros HF HS HL HP. destruct (mrun_nonces ncs (CSign sk T msg :: rest) r) as (os & E & L). rewrite E.
  cbn [mrun mstep]. rewrite HF, HS. pose proof (signing_no_nonces rest sr) as N. destruct (mrun (Signing sr) rest) as [p2 log]. cbn [snd] in *.
  right. split; [apply in_app_iff; right; left; reflexivity|]. exists pns. split; [|reflexivity]. split; [exact HL|].
  assert (NE : nonces_of (map (fun p => (CNonce (fst (fst p)) (snd (fst p)), RReceived (snd p))) (combine ncs os)
                 ++ (CSign sk T msg, RPartial (Ok s)) :: log) = ncs).
  { unfold nonces_of in *. rewrite flat_map_app. cbn [flat_map fst app]. rewrite N, app_nil_r.
    clear - L. revert os L. induction ncs as [|[i n] ncs IH]; intros [|o os] L; try discriminate; [reflexivity|].
    cbn [combine map flat_map fst snd app]. f_equal. apply IH. injection L as L. exact L. }
  rewrite NE. exact HP.
Qed.
End Lives.

Lemma toy_s_eq j : j < 3 -> our_signature (toy_sr0 j) = Ok (toy_s j).
Proof.
  intro H. unfold toy_s, toy_sig_of. assert (E : is_ok (our_signature (toy_sr0 j)) = true) by (destruct j as [|[|[|j]]]; [vm_compute; reflexivity..|lia]).
  apply is_ok_ex in E as [x ->]. reflexivity.
Qed.
Lemma toy_mixed_released j : j < 3 ->
  released (toy_r0 j) (snd (mrun (Collecting (toy_r0 j)) (toy_mixed j))) (toy_sk j) pt_O toy_msg (agg_sum toy_three) (toy_s j).
Proof.
  intro H. destruct j as [|[|[|j]]]; [| | |lia].
  - apply (released_for (toy_r0 0) (toy_heard 0)). vm_compute. reflexivity.
  - apply (released_for (toy_r0 1) (toy_heard 1)). vm_compute. reflexivity.
  - assert (E : is_ok (fr_finalize_adaptor (fst (fr_run (toy_r0 2) (toy_heard 2))) (toy_sk 2) pt_O toy_msg) = true) by (vm_compute; reflexivity).
    assert (F : match fr_finalize_adaptor (fst (fr_run (toy_r0 2) (toy_heard 2))) (toy_sk 2) pt_O toy_msg with
                | Ok sr => match our_signature sr with Ok x => feqb x (toy_s 2) | _ => false end | _ => false end = true) by (vm_compute; reflexivity).
    apply is_ok_ex in E as [sr E]. rewrite E in F.
    apply (released_peers (toy_r0 2) (toy_heard 2) (toy_sk 2) pt_O toy_msg sr toy_three (toy_s 2)).
    + exact E.
    + destruct (our_signature sr) as [x| |]; [|discriminate|discriminate]. f_equal. apply feqb_eq. exact F.
    + rewrite toy_round_ctx by lia. vm_compute. reflexivity.
    + intros j Hj. rewrite toy_r0_index by lia. cbn [toy_heard]. rewrite !on_file_cons.
      destruct j as [|[|[|j]]]; [reflexivity..|cbn [toy_three length] in Hj; lia].
Qed.
Lemma toy_told_released j : j < 3 ->
  released (toy_r0 j) (snd (mrun (Collecting (toy_r0 j)) (toy_told j))) (toy_sk j) pt_O toy_msg (toy_told_an j) (toy_told_s j).
Proof.
  intro H. apply (released_for (toy_r0 j) []). cbn [fr_run fst]. unfold toy_told_s.
  destruct j as [|[|[|j]]]; [vm_compute; reflexivity..|lia].
Qed.
