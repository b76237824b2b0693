(** Adaptor points chosen after the nonces: C91. *)
From Coq Require Import String List.
From Verif Require Import Bytes BytesFacts Prims PrimsFacts TaggedHashes Errors SpecTags SpecBIP327
  KeyAgg Nonces Signature Signing SigAgg Bip340 Rounds SpecCtx SpecView SpecSession SpecRounds SpecExtract SpecReuse SpecAlgebra SpecMixing Toy ToyData ToyReuse ToyMixing Secp256k1.
Import ListNotations.
Open Scope list_scope.
Open Scope Z_scope.
From Verif Require Import ProofsMixing.

(** C91: adaptor points chosen after the nonces.  The nonce coefficient of a session does not depend on the adaptor point
    (signing.rs:70-72).  So somebody who can ask a signer for its partial signature for one of two adaptor
    points of their choice, in as many concurrent sessions as n has bits, forges a signature of the signer on any
    message, for any key Q that is A times the signer's key plus a known point: the key itself, or
    the aggregated key of a group whose other keys are the forger's, tweaked or not.  The points to ask for are told by [chosen],
    which uses no answer; [mixed_sig] makes the signature of the answers.  All that is needed besides is
    that the two points lead to different challenges in each session, and that the nonce of the forgery is not infinite. *)
Theorem C91_forgery {Pr : prims} {Laws : prims_ok Pr} {Tags : tags_ok Pr} (P : point Pr) (os : list (offer Pr)) (ss : list (mscalar Pr)) (Q : point Pr) (A k : Z) (msg : bytes) (HQ : pval Q = pt_add (point_mul P A) (point_mul pt_G k)) (Hn : n_ <= 2 ^ Z.of_nat (length os)) (Hw : forall o, In o os -> offer_w P o true mod n_ <> offer_w P o false mod n_) (HR : mixed_R P os <> pt_O) (Hl : length ss = length os) :
  (forall j o s, nth_error os j = Some o -> nth_error ss j = Some s -> session_of P (answered o (chosen P os Q A msg j) s)) ->
  verify_single_bytes Q (mixed_sig P os Q A k msg ss) msg = Ok tt.
Proof. exact (@C91_forgery_proof Pr Laws Tags P os ss Q A k msg HQ Hn Hw HR Hl). Qed.
Print Assumptions C91_forgery.

(** On the toy curve five sessions are enough.  The signer has the key 3*G in a group with 13*G, and each session is
    open for no adaptor point or for 9*G.  The forger owns 13*G; the key of the group is 5 * (3*G) + 13*G. *)
Example C91_forgery_case :
  pval mix_Q = pt_add (point_mul mix_P 5) (point_mul pt_G 13) /\ 31 <= 2 ^ Z.of_nat (length mix_offers) /\
  (forall o, In o mix_offers -> offer_w mix_P o true mod 31 <> offer_w mix_P o false mod 31) /\ mixed_R mix_P mix_offers <> pt_O /\
  map (chosen mix_P mix_offers mix_Q 5 mix_msg) (seq 0 5) = [false; true; true; true; true] /\
  mix_msg <> toy_msg /\ is_ok (verify_single_bytes mix_Q (mixed_sig mix_P mix_offers mix_Q 5 13 mix_msg mix_answers) mix_msg) = true.
Proof.
  split; [exact mix_Q_eq|]. split; [vm_compute; discriminate|]. split; [exact mix_differ|]. split; [exact mix_R_finite|].
  split; [cbn [map seq]; rewrite !mix_chosen; reflexivity|]. split; [vm_compute; discriminate|]. rewrite mix_sig. vm_compute. reflexivity.
Qed.

(** The same with a signer that signs what it is asked for, once with each secret nonce. *)
Theorem C91_forgery_from_signer {Pr : prims} {Laws : prims_ok Pr} {Tags : tags_ok Pr} (sk : scalar Pr) (os : list (offer Pr)) (sns : list (sec_nonce Pr)) (ss : list (mscalar Pr)) (Q : point Pr) (A k : Z) (msg : bytes) (HQ : pval Q = pt_add (point_mul (base_mul sk) A) (point_mul pt_G k)) (Hn : n_ <= 2 ^ Z.of_nat (length os)) (Hw : forall o, In o os -> ctx_reachable (o_ctx o) /\ offer_w (base_mul sk) o true mod n_ <> offer_w (base_mul sk) o false mod n_) (HR : mixed_R (base_mul sk) os <> pt_O) (Hs : map o_nonce os = map public_nonce sns) (Hl : length ss = length os) :
  (forall j o sn s, nth_error os j = Some o -> nth_error sns j = Some sn -> nth_error ss j = Some s ->
     sign_partial_adaptor (o_ctx o) sk sn (o_aggnonce o) (o_point o (chosen (base_mul sk) os Q A msg j)) (o_message o) = Ok s) ->
  verify_single_bytes Q (mixed_sig (base_mul sk) os Q A k msg ss) msg = Ok tt.
Proof. exact (@C91_forgery_from_signer_proof Pr Laws Tags sk os sns ss Q A k msg HQ Hn Hw HR Hs Hl). Qed.
Print Assumptions C91_forgery_from_signer.

(** The secret nonces of the five sessions are those of round objects; signing with them gives these answers. *)
Example C91_forgery_from_signer_case :
  map o_nonce mix_offers = map public_nonce (map fr_secnonce mix_rounds) /\ (forall o, In o mix_offers -> ctx_reachable (o_ctx o)) /\
  forallb (fun j => match nth_error mix_rounds j, nth_error mix_answers j with
    | Some r, Some s => ok_and (sign_partial_adaptor reuse_c (tsc 3) (fr_secnonce r) (o_aggnonce (mix_offer r))
        (o_point (mix_offer r) (chosen (base_mul (tsc 3)) mix_offers mix_Q 5 mix_msg j)) toy_msg) (fun s' => fz s' =? fz s)
    | _, _ => false end) (seq 0 5) = true.
Proof.
  split; [unfold mix_offers; rewrite !map_map; reflexivity|]. split.
  2:{ unfold chosen. change (base_mul (tsc 3)) with mix_P. rewrite mix_wanted. vm_compute. reflexivity. }
  intros o H. unfold mix_offers in H. apply in_map_iff in H as (r & <- & _). exact reuse_c_reach.
Qed.

(** And with a signer that uses the round objects as documented: all nonces of all sessions are received first, and
    then each session is finalized with the adaptor point that the other side names. *)
Theorem C91_forgery_from_rounds {Pr : prims} {Laws : prims_ok Pr} {Tags : tags_ok Pr} (sk : scalar Pr) (os : list (offer Pr)) (rounds : list (first_round Pr * list (nat * pub_nonce Pr))) (ss : list (mscalar Pr)) (Q : point Pr) (A k : Z) (msg : bytes) (HQ : pval Q = pt_add (point_mul (base_mul sk) A) (point_mul pt_G k)) (Hn : n_ <= 2 ^ Z.of_nat (length os)) (Hw : forall o, In o os -> offer_w (base_mul sk) o true mod n_ <> offer_w (base_mul sk) o false mod n_) (HR : mixed_R (base_mul sk) os <> pt_O) (Hr : length rounds = length os) (Hl : length ss = length os) :
  (forall j o r calls s, nth_error os j = Some o -> nth_error rounds j = Some (r, calls) -> nth_error ss j = Some s ->
     fr_started r /\ fr_ctx r = o_ctx o /\ our_public_nonce r = o_nonce o /\
     exists sr, fr_finalize_adaptor (fst (fr_run r calls)) sk (o_point o (chosen (base_mul sk) os Q A msg j)) (o_message o) = Ok sr /\
       sr_aggnonce sr = o_aggnonce o /\ our_signature sr = Ok s) ->
  verify_single_bytes Q (mixed_sig (base_mul sk) os Q A k msg ss) msg = Ok tt.
Proof. exact (@C91_forgery_from_rounds_proof Pr Laws Tags sk os rounds ss Q A k msg HQ Hn Hw HR Hr Hl). Qed.
Print Assumptions C91_forgery_from_rounds.

(** The five sessions are sessions of round objects, which have received the other side's nonce; their answers are
    those of the example before. *)
Example C91_forgery_from_rounds_case : forall j o r calls s,
  nth_error mix_offers j = Some o -> nth_error (map (fun r => (r, mix_calls)) mix_rounds) j = Some (r, calls) -> nth_error mix_answers j = Some s ->
  fr_started r /\ fr_ctx r = o_ctx o /\ our_public_nonce r = o_nonce o /\
  exists sr, fr_finalize_adaptor (fst (fr_run r calls)) (tsc 3) (o_point o (chosen (base_mul (tsc 3)) mix_offers mix_Q 5 mix_msg j)) (o_message o) = Ok sr /\
    sr_aggnonce sr = o_aggnonce o /\ our_signature sr = Ok s.
Proof. exact mix_answered. Qed.
Example C91_forgery_from_rounds_lengths : length (map (fun r => (r, mix_calls)) mix_rounds) = 5%nat /\ length mix_offers = 5%nat /\ length mix_answers = 5%nat.
Proof. split; [|split]; reflexivity. Qed.

(** On secp256k1 with SHA-256, 256 open sessions are enough. *)
Theorem C91_forgery_on_secp256k1 (r : bytes -> nat -> positive) (P : point (Secp r)) (os : list (offer (Secp r))) (ss : list (mscalar (Secp r))) (Q : point (Secp r)) (A k : Z) (msg : bytes) (HQ : pval Q = pt_add (point_mul P A) (point_mul (@pt_G (Secp r)) k)) (Hn : (256 <= length os)%nat) (Hw : forall o, In o os -> offer_w P o true mod @n_ (Secp r) <> offer_w P o false mod @n_ (Secp r)) (HR : mixed_R P os <> @pt_O (Secp r)) (Hl : length ss = length os) :
  (forall j o s, nth_error os j = Some o -> nth_error ss j = Some s -> session_of P (answered o (chosen P os Q A msg j) s)) ->
  verify_single_bytes Q (mixed_sig P os Q A k msg ss) msg = Ok tt.
Proof. exact (@C91_forgery_on_secp256k1_proof r P os ss Q A k msg HQ Hn Hw HR Hl). Qed.
Print Assumptions C91_forgery_on_secp256k1.

(** The order has 256 bits, so fewer sessions are not enough for this. *)
Example C91_order_of_secp256k1 : (@n_ (Secp (fun _ _ => 1%positive)) <=? 2 ^ 256) = true /\ (@n_ (Secp (fun _ _ => 1%positive)) <=? 2 ^ 255) = false.
Proof. split; vm_compute; reflexivity. Qed.
