(** A toy session in which signer 2 sends different nonces to signers 0 and 1. *)
From Coq Require Import List Arith Lia.
From Verif Require Import Bytes Prims Errors KeyAgg Nonces Signature Signing SigAgg Rounds SpecRounds Toy ToyData ToyRounds.
Import ListNotations.
Local Open Scope nat_scope.

(** The nonces delivered to signer [j]. *)
Definition toy_two_faced (j : nat) : list (nat * pub_nonce Toy) :=
  match j with
  | 0 => [(2, toy_pn 2); (1, toy_pn 1)]
  | _ => [(0, toy_pn 0); (2, toy_pn 0)]
  end.
(** Signer [j]'s second round after them; a dummy when there is none. *)
Definition toy_sr2 (j : nat) : second_round Toy :=
  match fr_finalize_adaptor (fst (fr_run (toy_r0 j) (toy_two_faced j))) (toy_sk j) pt_O toy_msg with
  | Ok r => r
  | _ => toy_sr0 j
  end.
Lemma toy_sr2_eq j : j < 2 ->
  fr_finalize_adaptor (fst (fr_run (toy_r0 j) (toy_two_faced j))) (toy_sk j) pt_O toy_msg = Ok (toy_sr2 j).
Proof.
  intro H. unfold toy_sr2.
  assert (E : is_ok (fr_finalize_adaptor (fst (fr_run (toy_r0 j) (toy_two_faced j))) (toy_sk j) pt_O toy_msg) = true)
    by (destruct j as [|[|j]]; [vm_compute; reflexivity..|lia]).
  apply is_ok_ex in E as [r ->]. reflexivity.
Qed.
