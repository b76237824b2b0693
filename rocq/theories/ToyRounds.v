(** Concrete rounds of the three signers of [toy_c], used by the examples. *)
From Coq Require Import List Arith Lia.
From Verif Require Import Bytes Prims Errors Toy KeyAgg Nonces Signature Signing SigAgg Rounds SpecCtx KeyAggFacts SpecRounds RoundsFacts ToyData.
Import ListNotations.
Open Scope nat_scope.

(** A seed. *)
Definition toy_seed : bytes := repeat x2a 32.

(** The first round of signer [i]; a dummy when [i] is not a signer. *)
Definition toy_r0 (i : nat) : first_round Toy :=
  match first_round_new toy_c toy_seed i spices_new with
  | Ok r => r
  | _ => {| fr_ctx := toy_c; fr_index := i; fr_secnonce := mk_sn 1 1; fr_slots := slots_new 0 |}
  end.
Lemma toy_r0_eq i : i < 3 -> first_round_new toy_c toy_seed i spices_new = Ok (toy_r0 i).
Proof.
  intro H. unfold toy_r0.
  assert (E : is_ok (first_round_new toy_c toy_seed i spices_new) = true)
    by (destruct i as [|[|[|i]]]; [vm_compute; reflexivity..|lia]).
  apply is_ok_ex in E as [r ->]. reflexivity.
Qed.
Lemma toy_r0_started i : i < 3 -> fr_started (toy_r0 i).
Proof. intro H. exists toy_c, toy_seed, i, spices_new. split; [apply toy_c_reach | apply toy_r0_eq, H]. Qed.

(** Signer [i]'s public nonce. *)
Definition toy_pn (i : nat) : pub_nonce Toy := our_public_nonce (toy_r0 i).
(** All nonces, also one's own. *)
Definition toy_ncalls : list (nat * pub_nonce Toy) := [(2, toy_pn 2); (1, toy_pn 1); (0, toy_pn 0)].
(** Signer [i]'s secret key. *)
Definition toy_sk (i : nat) : scalar Toy := nth i toy_sks sk_a.

(** The second round of signer [i] signing with key [sk]. *)
Definition toy_sr (sk : scalar Toy) (T : pt) (msg : bytes) (i : nat) : second_round Toy :=
  match fr_finalize_adaptor (fst (fr_run (toy_r0 i) toy_ncalls)) sk T msg with
  | Ok r => r
  | _ => {| sr_ctx := toy_c; sr_index := i; sr_pubnonces := []; sr_aggnonce := toy_an;
            sr_adaptor := T; sr_message := msg; sr_slots := slots_new 0 |}
  end.
Lemma toy_sr_eq sk T msg i :
  is_ok (fr_finalize_adaptor (fst (fr_run (toy_r0 i) toy_ncalls)) sk T msg) = true ->
  fr_finalize_adaptor (fst (fr_run (toy_r0 i) toy_ncalls)) sk T msg = Ok (toy_sr sk T msg i).
Proof. intro H. unfold toy_sr. apply is_ok_ex in H as [r ->]. reflexivity. Qed.
Lemma toy_sr_started sk T msg i : i < 3 ->
  is_ok (fr_finalize_adaptor (fst (fr_run (toy_r0 i) toy_ncalls)) sk T msg) = true ->
  sr_started (toy_sr sk T msg i).
Proof.
  intros Hi H. exists (toy_r0 i), toy_ncalls, sk, T, msg. split; [apply toy_r0_started, Hi | apply toy_sr_eq, H].
Qed.

(** A plain session and each signer's signature in it. *)
Definition toy_sr0 (i : nat) : second_round Toy := toy_sr (toy_sk i) pt_O toy_msg i.
Lemma toy_sr0_eq i : i < 3 ->
  fr_finalize_adaptor (fst (fr_run (toy_r0 i) toy_ncalls)) (toy_sk i) pt_O toy_msg = Ok (toy_sr0 i).
Proof. intro H. apply toy_sr_eq. destruct i as [|[|[|i]]]; [vm_compute; reflexivity..|lia]. Qed.
Lemma toy_sr0_started i : i < 3 -> sr_started (toy_sr0 i).
Proof. intro H. apply toy_sr_started; [exact H|]. destruct i as [|[|[|i]]]; [vm_compute; reflexivity..|lia]. Qed.
(** The own signature of a second round. *)
Definition toy_sig_of (r : second_round Toy) : mscalar Toy :=
  match our_signature r with Ok s => s | _ => fzero end.
(** Signer [i]'s partial signature. *)
Definition toy_s (i : nat) : mscalar Toy := toy_sig_of (toy_sr0 i).
(** All partial signatures, in some order. *)
Definition toy_scalls : list (nat * mscalar Toy) := [(2, toy_s 2); (0, toy_s 0); (1, toy_s 1)].

(** An adaptor session. *)
Definition toy_srT (i : nat) : second_round Toy := toy_sr (toy_sk i) toy_T toy_msg i.
Lemma toy_srT_started i : i < 3 -> sr_started (toy_srT i).
Proof. intro H. apply toy_sr_started; [exact H|]. destruct i as [|[|[|i]]]; [vm_compute; reflexivity..|lia]. Qed.
(** Signer [i]'s partial signature in it. *)
Definition toy_sT (i : nat) : mscalar Toy := toy_sig_of (toy_srT i).
(** All of them, in some order. *)
Definition toy_scallsT : list (nat * mscalar Toy) := [(1, toy_sT 1); (0, toy_sT 0); (2, toy_sT 2)].

(** Whether R1 + b*R2 is finite in the plain session. *)
Example toy_rounds_finite :
  is_ok (sr_finalize (fst (sr_run (toy_sr0 1) toy_scalls))) = true /\
  is_ok (sr_finalize_adaptor (fst (sr_run (toy_srT 1) toy_scallsT))) = true.
Proof. split; vm_compute; reflexivity. Qed.

Lemma toy_sr_adaptor sk T msg i :
  sr_adaptor (toy_sr sk T msg i) = T.
Proof.
  unfold toy_sr. destruct (fr_finalize_adaptor _ _ _ _) as [r| |] eqn:E; [|reflexivity..].
  unfold fr_finalize_adaptor in E. destruct (slots_finalize _) as [pns| |]; cbn [bind] in E; try discriminate.
  destruct (map_err _ _) as [s| |]; cbn [bind] in E; try discriminate.
  destruct (place _ _ _ _) as [sl [o| |]]; try discriminate. apply f_equal with (f := fun x => match x with Ok y => sr_adaptor y | _ => T end) in E.
  cbn in E. congruence.
Qed.
Lemma toy_T_nz : toy_T <> pt_O.
Proof. intro H. assert (E : pt_eqb toy_T pt_O = true) by (rewrite H; vm_compute; reflexivity). vm_compute in E. discriminate. Qed.

Lemma ok_and_ex {E A} (r : res E A) f : ok_and r f = true -> exists a, r = Ok a /\ f a = true.
Proof. destruct r; cbn; intro H; [eauto|discriminate..]. Qed.

(** Lists of points by computation. *)
Lemma points_eq (l m : list (point Toy)) :
  (Nat.eqb (length l) (length m) && forallb (fun p : point Toy * point Toy => point_eqb (fst p) (snd p)) (combine l m))%bool = true -> l = m.
Proof.
  revert m. induction l as [|x l IH]; intros [|y m]; cbn [length Nat.eqb combine forallb fst snd andb]; try discriminate; [reflexivity|].
  intro H. apply andb_prop in H as [H1 H2]. apply andb_prop in H2 as [H2 H3]. apply point_eqb_eq in H2. subst y.
  f_equal. apply IH. rewrite H1, H3. reflexivity.
Qed.
Lemma map_base_toy (sks : list (scalar Toy)) :
  (Nat.eqb (length (pubkeys toy_c)) (length (map base_mul sks)) && forallb (fun p : point Toy * point Toy => point_eqb (fst p) (snd p))
     (combine (pubkeys toy_c) (map base_mul sks)))%bool = true -> pubkeys toy_c = map base_mul sks.
Proof. apply points_eq. Qed.

(** Whether exactly these nonces are on file, by computation. *)
Definition recorded_eqb (l : list (option (pub_nonce Toy))) (m : list (pub_nonce Toy)) : bool :=
  (Nat.eqb (length l) (length m) &&
   forallb (fun p : option (pub_nonce Toy) * pub_nonce Toy =>
     match fst p with Some x => pubnonce_eqb x (snd p) | None => false end) (combine l m))%bool.
Lemma recorded_eq l m : recorded_eqb l m = true -> l = map Some m.
Proof.
  unfold recorded_eqb. revert m. induction l as [|x l IH]; intros [|y m]; cbn [length Nat.eqb combine forallb fst snd andb map]; try discriminate; [reflexivity|].
  intro H. apply andb_prop in H as [H1 H2]. apply andb_prop in H2 as [H2 H3]. destruct x as [x|]; [|discriminate].
  apply pubnonce_eqb_eq in H2. subst y. f_equal. apply IH. rewrite H1, H3. reflexivity.
Qed.
Lemma toy_slots_recorded :
  slot_vec (fr_slots (fst (fr_run (toy_r0 1) toy_ncalls))) = map Some [toy_pn 0; toy_pn 1; toy_pn 2].
Proof. apply recorded_eq. vm_compute. reflexivity. Qed.

(** The second rounds of signers 0 and 1 after the nonces of signers 0 and 2 were exchanged on
    their way to signer 1. *)
Definition split_view (i : nat) : res finalize_error (second_round Toy) :=
  fr_finalize_adaptor (fst (fr_run (toy_r0 i)
    (if i =? 1 then [(0, toy_pn 2); (2, toy_pn 0)] else [(1, toy_pn 1); (2, toy_pn 2)]))) (toy_sk i) pt_O toy_msg.
(** A second round after every scalar was delivered for every signer. *)
Definition complete_by_search (r : second_round Toy) : second_round Toy :=
  fst (sr_run r (flat_map (fun i => map (fun s => (i, of_Z _ (Z.of_nat s))) (seq 0 31)) (seq 0 3))).
