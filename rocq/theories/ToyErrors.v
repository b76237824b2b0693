(** Arguments on the toy curve with which each function returns each of its errors. *)
From Coq Require Import String List.
From Verif Require Import Bytes Prims Errors KeyAgg Nonces Signature Encoding Signing SigAgg Bip340 Rounds SpecCtx SpecRounds SpecDecode SpecErrors Toy ToyData ToyRounds.
Import ListNotations.
Local Open Scope list_scope.

(** An evaluated error has that name. *)
Definition failsb {E A} (name : E -> variant) (r : res E A) : option variant := match r with Err e => Some (name e) | _ => None end.
Lemma failsb_ok {E A} (name : E -> variant) (r : res E A) v : failsb name r = Some v -> fails name r v.
Proof. destruct r as [a|e|]; cbn; try discriminate. intro H. injection H as <-. exists e. auto. Qed.

(** Bytes that the decoder of type [k] refuses with that error. *)
Definition toy_bad (k : kind) (v : variant) : bytes :=
  let c := ctx_to_bytes toy_c in
  match k, v with
  | Context, V_Scalar => x02 :: repeat x00 32 ++ skipn 33 c
  | Context, V_Point => removelast c ++ [xff]
  | Context, V_Custom => x00 :: be_enc 4 2 ++ ser_point (tpt 3) ++ ser_point (tpt 18)
  | (SecretNonce | Compact | Lifted), V_Scalar => pt_x (pval (tpt 3)) ++ repeat xff 32
  | Lifted, V_Point => repeat xff 32 ++ repeat x00 32
  | Adaptor, V_Scalar => repeat x00 33 ++ repeat xff 32
  | Adaptor, V_Point => repeat xff 65
  | (PublicNonce | AggregatedNonce), V_Point => repeat xff 66
  | _, _ => [x00]
  end.

Lemma toy_decode k v : In v (decode_table k) -> decode_gives Toy k (toy_bad k v) v.
Proof.
  destruct k; cbn [decode_table In]; intros H;
    repeat match type of H with _ \/ _ => destruct H as [<- | H] end; try contradiction; cbn [decode_gives]; apply failsb_ok; vm_compute; reflexivity.
Qed.
Lemma toy_hex k v : In v (V_Hex :: decode_table k) -> exists s, hex_gives Toy k s v.
Proof.
  cbn [In]. intros [<- | H].
  - exists [x67; x67]. destruct k; cbn [hex_gives]; apply failsb_ok; vm_compute; reflexivity.
  - exists (hex_encode false (toy_bad k v)). destruct k; cbn [decode_table In] in H;
    repeat match type of H with _ \/ _ => destruct H as [<- | H] end; try contradiction; cbn [hex_gives]; apply failsb_ok; vm_compute; reflexivity.
Qed.
(** A second round that was finalized with another member's key. *)
Definition toy_spoilt : second_round Toy := toy_sr sk_b pt_O toy_msg 0.
Lemma toy_spoilt_started : sr_started toy_spoilt.
Proof. apply toy_sr_started; [repeat constructor | vm_compute; reflexivity]. Qed.

Lemma toy_gives f v : In v (table f) -> gives Toy f v.
Proof.
  destruct f; cbn [table gives].
  23: intro H; exists (toy_bad k v); apply toy_decode; exact H.
  23: apply toy_hex.
  all: cbn [In]; intro H; repeat match type of H with _ \/ _ => destruct H as [<- | H] end; try contradiction.
  - exists [tpt 3; tpt 18]. apply failsb_ok. vm_compute. reflexivity.
  - exists toy_c0, [(tsc 8, false)]. split; [exact toy_c0_reach|]. apply failsb_ok. vm_compute. reflexivity.
  - exists toy_c0, (repeat x00 32). split; [exact toy_c0_reach|]. split; [reflexivity|]. apply failsb_ok. vm_compute. reflexivity.
  - exists toy_c0, []. split; [exact toy_c0_reach|]. apply failsb_ok. vm_compute. reflexivity.
  - exists toy_c0, (tsc 4), (mk_sn 7 11), toy_an, toy_msg. split; [exact toy_c0_reach|]. apply failsb_ok. vm_compute. reflexivity.
  - exists toy_c0, (tsc 4), (mk_sn 7 11), toy_an, toy_T, toy_msg. split; [exact toy_c0_reach|]. apply failsb_ok. vm_compute. reflexivity.
  - exists toy_c0, (of_Z 31 4), toy_an, (tpt 4), (public_nonce (mk_sn 7 11)), toy_msg. split; [exact toy_c0_reach|]. apply failsb_ok. vm_compute. reflexivity.
  - exists toy_c, (of_Z 31 4), toy_an, (tpt 3), (public_nonce (mk_sn 7 11)), toy_msg. split; [exact toy_c_reach|]. apply failsb_ok. vm_compute. reflexivity.
  - exists toy_c0, (of_Z 31 4), toy_an, toy_T, (tpt 4), (public_nonce (mk_sn 7 11)), toy_msg. split; [exact toy_c0_reach|]. apply failsb_ok. vm_compute. reflexivity.
  - exists toy_c, (of_Z 31 4), toy_an, toy_T, (tpt 3), (public_nonce (mk_sn 7 11)), toy_msg. split; [exact toy_c_reach|]. apply failsb_ok. vm_compute. reflexivity.
  - exists toy_c, toy_an, [of_Z 31 1], toy_msg. split; [exact toy_c_reach|]. apply failsb_ok. vm_compute. reflexivity.
  - exists toy_c, toy_an, toy_T, [of_Z 31 1], toy_msg. split; [exact toy_c_reach|]. apply failsb_ok. vm_compute. reflexivity.
  - exists (tpt 3), (CompactSignature (Pr := Toy) (repeat x00 32) (of_Z 31 1)), toy_msg. apply failsb_ok. vm_compute. reflexivity.
  - exists (tpt 3), (AdaptorSignature (Pr := Toy) (pval (tpt 5)) (of_Z 31 1)), toy_msg, toy_T. apply failsb_ok. vm_compute. reflexivity.
  - exists [BatchRow (Pr := Toy) (tpt 3) (of_Z 31 1) pt_O (of_Z 31 1)]. apply failsb_ok. vm_compute. reflexivity.
  - exists toy_c, toy_seed, 3, spices_new. split; [exact toy_c_reach|]. apply failsb_ok. vm_compute. reflexivity.
  - exists (toy_r0 0), [], 3, (toy_pn 1). split; [apply toy_r0_started; auto|]. apply failsb_ok. vm_compute. reflexivity.
  - exists (toy_r0 0), [(1, toy_pn 1)], 1, (toy_pn 2). split; [apply toy_r0_started; auto|]. apply failsb_ok. vm_compute. reflexivity.
  - exists (toy_r0 0), [], sk_a, toy_msg. split; [apply toy_r0_started; auto|]. apply failsb_ok. vm_compute. reflexivity.
  - exists (toy_r0 0), toy_ncalls, (tsc 4), toy_msg. split; [apply toy_r0_started; auto|]. apply failsb_ok. vm_compute. reflexivity.
  - exists (toy_r0 0), [], sk_a, toy_T, toy_msg. split; [apply toy_r0_started; auto|]. apply failsb_ok. vm_compute. reflexivity.
  - exists (toy_r0 0), toy_ncalls, (tsc 4), toy_T, toy_msg. split; [apply toy_r0_started; auto|]. apply failsb_ok. vm_compute. reflexivity.
  - exists (toy_r0 0), [], (tsc 4), toy_msg, toy_an. split; [apply toy_r0_started; auto|]. apply failsb_ok. vm_compute. reflexivity.
  - exists (toy_r0 0), [], (tsc 4), toy_T, toy_msg, toy_an. split; [apply toy_r0_started; auto|]. apply failsb_ok. vm_compute. reflexivity.
  - exists (toy_sr0 0), [], 3, (toy_s 1). split; [apply toy_sr0_started; auto|]. apply failsb_ok. vm_compute. reflexivity.
  - exists toy_spoilt, [], 0, (toy_s 0). split; [exact toy_spoilt_started|]. apply failsb_ok. vm_compute. reflexivity.
  - exists (toy_sr0 0), [], 1, (of_Z 31 0). split; [apply toy_sr0_started; auto|]. apply failsb_ok. vm_compute. reflexivity.
  - exists (toy_sr0 0), []. split; [apply toy_sr0_started; auto|]. apply failsb_ok. vm_compute. reflexivity.
  - exists toy_spoilt, toy_scalls. split; [exact toy_spoilt_started|]. apply failsb_ok. vm_compute. reflexivity.
  - exists (toy_sr0 0), []. split; [apply toy_sr0_started; auto|]. apply failsb_ok. vm_compute. reflexivity.
  - exists toy_spoilt, toy_scalls. split; [exact toy_spoilt_started|]. apply failsb_ok. vm_compute. reflexivity.
Qed.
