(** Properties of the two-round state machine: C26 - C34. *)
From Coq Require Import String List Sorting.Sorted Permutation.
From Verif Require Import Bytes BytesFacts Prims PrimsFacts TaggedHashes Errors SpecTags SpecBIP327
  KeyAgg Nonces Signature Signing SigAgg Bip340 Rounds SpecCtx SpecView SpecSession SpecRounds Toy ToyData ToyRounds.
Import ListNotations.
Open Scope list_scope.
Open Scope nat_scope.
From Verif Require Import ProofsRounds.

(** C26.  [FirstRound::new] fails exactly for an index that is not a signer's; otherwise every
    other signer is a holdout.  It panics exactly when the caller's extra inputs together with
    the four bytes of the index exceed 2^32 - 1 bytes. *)
Theorem C26_new {Pr : prims} {Laws : prims_ok Pr} {Tags : tags_ok Pr} (c : key_agg_ctx Pr) (seed : bytes) (i : nat) (sp : spices Pr) :
  let n := length (pubkeys c) in
  let extra := zlen (concat (sp_extra_inputs sp)) in
  (n <= i -> first_round_new c seed i sp = Err (SignerIndexError i n)) /\
  (i < n -> (4 + extra < 2 ^ 32)%Z -> exists r, first_round_new c seed i sp = Ok r /\
     fr_ctx r = c /\ fr_index r = i /\ fr_holdouts r = seq 0 i ++ seq (S i) (n - S i)) /\
  (i < n -> (2 ^ 32 <= 4 + extra)%Z -> first_round_new c seed i sp = Panic).
Proof. exact (@C26_new_proof Pr Laws Tags c seed i sp). Qed.
Print Assumptions C26_new.

Example C26_new_case : 2 < length (pubkeys toy_c) /\ fr_holdouts (toy_r0 1) = [0; 2] /\
  first_round_new toy_c toy_seed 3 spices_new = Err (SignerIndexError 3 3).
Proof. split; [vm_compute; auto|]. split; [vm_compute; reflexivity|]. apply err_of_eq. vm_compute. reflexivity. Qed.

(** C26, first round: after any calls the holdouts are the strictly increasing list of the
    other signers from whom nothing came; the round is complete when something came from each
    of them; no call panics. *)
Theorem C26_first_round_holdouts {Pr : prims} {Laws : prims_ok Pr} {Tags : tags_ok Pr} (r0 : first_round Pr) (calls : list (nat * pub_nonce Pr)) (Hr : fr_started r0) :
  let r := fst (fr_run r0 calls) in
  let n := length (pubkeys (fr_ctx r0)) in
  StronglySorted lt (fr_holdouts r) /\
  (forall j, In j (fr_holdouts r) <-> j < n /\ j <> fr_index r0 /\ ~ exists v, In (j, v) calls) /\
  (fr_is_complete r = true <-> forall j, j < n -> j <> fr_index r0 -> exists v, In (j, v) calls) /\
  ~ In Panic (snd (fr_run r0 calls)).
Proof. exact (@C26_first_round_holdouts_proof Pr Laws Tags r0 calls Hr). Qed.
Print Assumptions C26_first_round_holdouts.

(** Signer 1's nonce is repeated, signer 7 does not exist; signer 2 is missing. *)
Example C26_first_case : fr_started (toy_r0 0) /\
  fr_holdouts (fst (fr_run (toy_r0 0) [(1, toy_pn 1); (7, toy_pn 2); (1, toy_pn 1); (0, toy_pn 2)])) = [2].
Proof. split; [apply toy_r0_started; auto | vm_compute; reflexivity]. Qed.

(** C26, second round: the holdouts are the other signers from whom no valid signature
    came. *)
Theorem C26_second_round_holdouts {Pr : prims} {Laws : prims_ok Pr} {Tags : tags_ok Pr} (r0 : second_round Pr) (calls : list (nat * mscalar Pr)) (Hr : sr_started r0) :
  let r := fst (sr_run r0 calls) in
  let n := length (pubkeys (sr_ctx r0)) in
  StronglySorted lt (sr_holdouts r) /\
  (forall j, In j (sr_holdouts r) <->
     j < n /\ j <> sr_index r0 /\ ~ exists s, In (j, s) calls /\ sr_valid r0 j s) /\
  (sr_is_complete r = true <->
     forall j, j < n -> j <> sr_index r0 -> exists s, In (j, s) calls /\ sr_valid r0 j s) /\
  ~ In Panic (snd (sr_run r0 calls)).
Proof. exact (@C26_second_round_holdouts_proof Pr Laws Tags r0 calls Hr). Qed.
Print Assumptions C26_second_round_holdouts.

(** A wrong signature for signer 1 (rejected), then the right one. *)
Example C26_second_case : sr_started (toy_sr0 0) /\
  sr_holdouts (toy_sr0 0) = [1; 2] /\
  sr_holdouts (fst (sr_run (toy_sr0 0) [(1, tsc 1 : mscalar Toy)])) = [1; 2] /\
  sr_holdouts (fst (sr_run (toy_sr0 0) [(1, tsc 1 : mscalar Toy); (1, toy_s 1)])) = [2].
Proof. split; [apply toy_sr0_started; auto|]. vm_compute. auto. Qed.

(** C27.  In the first round the contribution on file for a signer is ours or the first one
    delivered.  A call succeeds when nothing or the same nonce is on file; it fails with
    InconsistentContribution when another nonce is, and with OutOfRange for other indexes;
    every call but the first accepted one for an index leaves the round as it was. *)
Theorem C27_first_contribution_wins {Pr : prims} {Laws : prims_ok Pr} {Tags : tags_ok Pr} (r0 : first_round Pr) (calls : list (nat * pub_nonce Pr)) (i : nat) (v : pub_nonce Pr) (Hr : fr_started r0) :
  let r := fst (fr_run r0 calls) in
  let n := length (pubkeys (fr_ctx r0)) in
  let filed := on_file ((fr_index r0, our_public_nonce r0) :: calls) in
  (n <= i -> receive_nonce r i v = (r, Err (RoundContributionError i (OutOfRange n)))) /\
  (i < n -> filed i = Some v -> receive_nonce r i v = (r, Ok tt)) /\
  (forall w, i < n -> filed i = Some w -> w <> v ->
     receive_nonce r i v = (r, Err (RoundContributionError i InconsistentContribution))) /\
  (i < n -> filed i = None -> snd (receive_nonce r i v) = Ok tt /\
     slot_vec (fr_slots (fst (receive_nonce r i v)))
     = map (fun j => if j =? i then Some v else filed j) (seq 0 n)) /\
  slot_vec (fr_slots r) = map filed (seq 0 n) /\
  our_public_nonce r = our_public_nonce r0.
Proof. exact (@C27_first_contribution_wins_proof Pr Laws Tags r0 calls i v Hr). Qed.
Print Assumptions C27_first_contribution_wins.

(** Signer 1's nonce is on file; another one, the same one, and a missing signer. *)
Example C27_case :
  fr_started (toy_r0 0) /\
  let r := fst (fr_run (toy_r0 0) [(1, toy_pn 1)]) in
  snd (receive_nonce r 1 (toy_pn 2)) = Err (RoundContributionError 1 InconsistentContribution) /\
  snd (receive_nonce r 1 (toy_pn 1)) = Ok tt /\
  snd (receive_nonce r 0 (toy_pn 1)) = Err (RoundContributionError 0 InconsistentContribution) /\
  snd (receive_nonce r 2 (toy_pn 2)) = Ok tt /\
  snd (receive_nonce r 3 (toy_pn 2)) = Err (RoundContributionError 3 (OutOfRange 3)).
Proof. split; [apply toy_r0_started; auto|]. vm_compute. auto. Qed.

(** C28, first round: two schedules that deliver the same nonces of the other signers, in any
    order and with any repetitions, lead to the same state when no two of the nonces
    delivered for one signer differ.  Whatever was delivered for our own index or for
    indexes out of range is irrelevant. *)
Theorem C28_first_round_order {Pr : prims} {Laws : prims_ok Pr} {Tags : tags_ok Pr} (r0 : first_round Pr) (calls1 : list (nat * pub_nonce Pr)) (calls2 : list (nat * pub_nonce Pr)) (Hr : fr_started r0) (Hsame : forall i v, i < length (pubkeys (fr_ctx r0)) -> i <> fr_index r0 -> (In (i, v) calls1 <-> In (i, v) calls2)) (Hcons : forall i v w, i < length (pubkeys (fr_ctx r0)) -> i <> fr_index r0 -> In (i, v) calls1 -> In (i, w) calls1 -> v = w) :
  fst (fr_run r0 calls1) = fst (fr_run r0 calls2).
Proof. exact (@C28_first_round_order_proof Pr Laws Tags r0 calls1 calls2 Hr Hsame Hcons). Qed.
Print Assumptions C28_first_round_order.

Example C28_first_case : fr_started (toy_r0 0) /\ 2 < length (pubkeys (fr_ctx (toy_r0 0))) /\
  fr_is_complete (fst (fr_run (toy_r0 0) [(1, toy_pn 1); (2, toy_pn 2)])) = true /\
  fr_is_complete (fst (fr_run (toy_r0 0) [(2, toy_pn 2); (9, toy_pn 2); (1, toy_pn 1); (2, toy_pn 2)])) = true.
Proof. split; [apply toy_r0_started; auto|]. split; [vm_compute; auto|]. vm_compute. auto. Qed.

(** C28, second round: two schedules that deliver the same valid signatures of the other
    signers lead to the same state; rejected deliveries are irrelevant. *)
Theorem C28_second_round_order {Pr : prims} {Laws : prims_ok Pr} {Tags : tags_ok Pr} (r0 : second_round Pr) (calls1 : list (nat * mscalar Pr)) (calls2 : list (nat * mscalar Pr)) (Hr : sr_started r0) (Hsame : forall i s, i < length (pubkeys (sr_ctx r0)) -> i <> sr_index r0 -> sr_valid r0 i s -> (In (i, s) calls1 <-> In (i, s) calls2)) :
  fst (sr_run r0 calls1) = fst (sr_run r0 calls2).
Proof. exact (@C28_second_round_order_proof Pr Laws Tags r0 calls1 calls2 Hr Hsame). Qed.
Print Assumptions C28_second_round_order.

Example C28_second_case : sr_started (toy_sr0 0) /\
  sr_is_complete (fst (sr_run (toy_sr0 0) [(1, toy_s 1); (2, toy_s 2)])) = true /\
  sr_is_complete (fst (sr_run (toy_sr0 0) [(2, toy_s 2); (1, toy_s 2); (1, toy_s 1); (2, toy_s 2)])) = true.
Proof. split; [apply toy_sr0_started; auto|]. vm_compute. auto. Qed.

(** C29.  In the second round a signature is accepted exactly when the index is in range, it
    satisfies the BIP327 equation for that signer's key and the nonce recorded in the first
    round, and it is not at odds with our own signature.  Otherwise the error names the index
    and the state does not change.  At another signer's index an accepted signature is the
    only one that will ever be on file. *)
Theorem C29_receive_signature {Pr : prims} {Laws : prims_ok Pr} {Tags : tags_ok Pr} (r0 : second_round Pr) (calls : list (nat * mscalar Pr)) (i : nat) (s : mscalar Pr) (Hr : sr_started r0) :
  let r := fst (sr_run r0 calls) in
  let n := length (pubkeys (sr_ctx r0)) in
  exists ours, our_signature r0 = Ok ours /\ our_signature r = Ok ours /\
  (snd (receive_signature r i s) = Ok tt <-> i < n /\ sr_valid r0 i s /\ (i = sr_index r0 -> s = ours)) /\
  (n <= i -> receive_signature r i s = (r, Err (RoundContributionError i (OutOfRange n)))) /\
  (i < n -> ~ sr_valid r0 i s -> receive_signature r i s = (r, Err (RoundContributionError i InvalidSignature))) /\
  (i = sr_index r0 -> sr_valid r0 i s -> s <> ours ->
     receive_signature r i s = (r, Err (RoundContributionError i InconsistentContribution))) /\
  (forall j t, nth_error (slot_vec (sr_slots r)) j = Some (Some t) <->
     j < n /\ ((j = sr_index r0 /\ t = ours) \/ (j <> sr_index r0 /\ In (j, t) calls /\ sr_valid r0 j t))).
Proof. exact (@C29_receive_signature_proof Pr Laws Tags r0 calls i s Hr). Qed.
Print Assumptions C29_receive_signature.

Example C29_case : sr_started (toy_sr0 0) /\ sr_index (toy_sr0 0) = 0 /\
  snd (receive_signature (toy_sr0 0) 1 (toy_s 1)) = Ok tt /\
  snd (receive_signature (toy_sr0 0) 1 (toy_s 2)) = Err (RoundContributionError 1 InvalidSignature) /\
  snd (receive_signature (toy_sr0 0) 0 (toy_s 1)) = Err (RoundContributionError 0 InvalidSignature) /\
  snd (receive_signature (toy_sr0 0) 3 (toy_s 1)) = Err (RoundContributionError 3 (OutOfRange 3)).
Proof. split; [apply toy_sr0_started; auto|]. vm_compute. auto 8. Qed.

(** C30, first round: [finalize] and [finalize_adaptor] report Incomplete exactly when there
    are holdouts; a complete round yields a second round exactly for a member's key and
    otherwise SigningError(UnknownKey); no panic. *)
Theorem C30_first_finalize {Pr : prims} {Laws : prims_ok Pr} {Tags : tags_ok Pr} (r0 : first_round Pr) (calls : list (nat * pub_nonce Pr)) (sk : scalar Pr) (T : pt) (msg : bytes) (Hr : fr_started r0) :
  let r := fst (fr_run r0 calls) in
  (fr_finalize_adaptor r sk T msg = Err FE_Incomplete <-> fr_holdouts r <> []) /\
  (fr_holdouts r = [] -> In (base_mul sk) (pubkeys (fr_ctx r0)) ->
     exists sr, fr_finalize_adaptor r sk T msg = Ok sr /\
       sr_ctx sr = fr_ctx r0 /\ sr_index sr = fr_index r0 /\ sr_adaptor sr = T /\ sr_message sr = msg /\
       slot_vec (fr_slots r) = map Some (sr_pubnonces sr) /\
       aggregated_nonce sr = agg_sum (sr_pubnonces sr) /\
       exists s, our_signature sr = Ok s /\
         fz s = spec_psig (fr_ctx r0) sk (fr_secnonce r0) (agg_sum (sr_pubnonces sr)) T msg) /\
  (fr_holdouts r = [] -> ~ In (base_mul sk) (pubkeys (fr_ctx r0)) ->
     fr_finalize_adaptor r sk T msg = Err (FE_SigningError SE_UnknownKey)) /\
  fr_finalize_adaptor r sk T msg <> Panic /\
  fr_finalize r sk msg = fr_finalize_adaptor r sk pt_O msg.
Proof. exact (@C30_first_finalize_proof Pr Laws Tags r0 calls sk T msg Hr). Qed.
Print Assumptions C30_first_finalize.

Example C30_first_case : fr_started (toy_r0 0) /\
  let r := fst (fr_run (toy_r0 0) [(1, toy_pn 1); (2, toy_pn 2)]) in
  fr_finalize_adaptor (toy_r0 0) sk_a pt_O toy_msg = Err FE_Incomplete /\
  is_ok (fr_finalize_adaptor r sk_a pt_O toy_msg) = true /\
  fr_finalize_adaptor r (tsc 4) pt_O toy_msg = Err (FE_SigningError SE_UnknownKey).
Proof.
  split; [apply toy_r0_started; auto|]. split; [apply err_of_eq; vm_compute; reflexivity|].
  split; [vm_compute; reflexivity|]. apply err_of_eq. vm_compute. reflexivity.
Qed.

(** C30, second round: [finalize_adaptor] reports Incomplete exactly when there are holdouts;
    when complete and our own signature is valid, it succeeds exactly when R1 + b*R2 is
    finite; what it returns is accepted by [adaptor::verify_single]; neither finalizer
    panics. *)
Theorem C30_second_finalize {Pr : prims} {Laws : prims_ok Pr} {Tags : tags_ok Pr} (r0 : second_round Pr) (calls : list (nat * mscalar Pr)) (Hr : sr_started r0) :
  let r := fst (sr_run r0 calls) in
  let R' := spec_R_raw (sr_ctx r0) (agg_sum (sr_pubnonces r0)) (sr_message r0) in
  (sr_finalize_adaptor r = Err FE_Incomplete <-> sr_holdouts r <> []) /\
  (sr_finalize r = Err FE_Incomplete <-> sr_holdouts r <> []) /\
  (sr_holdouts r = [] -> (forall ours, our_signature r0 = Ok ours -> sr_valid r0 (sr_index r0) ours) ->
     (R' <> pt_O -> exists sg, sr_finalize_adaptor r = Ok sg /\ a_R sg = R') /\
     (R' = pt_O -> sr_finalize_adaptor r = Err (FE_InvalidAggregatedSignature VE_BadSignature))) /\
  (forall sg, sr_finalize_adaptor r = Ok sg ->
     verify_single_adaptor (aggregated_pubkey (sr_ctx r0)) sg (sr_message r0) (sr_adaptor r0) = Ok tt) /\
  (forall l, sr_adaptor r0 = pt_O -> sr_finalize r = Ok l ->
     verify_single_lifted (aggregated_pubkey (sr_ctx r0)) l (sr_message r0) = Ok tt /\
     schnorr_verify (sr_message r0) (xbytes (aggregated_pubkey (sr_ctx r0))) (lifted_to_bytes l) = Ret true) /\
  sr_finalize_adaptor r <> Panic /\ sr_finalize r <> Panic.
Proof. exact (@C30_second_finalize_proof Pr Laws Tags r0 calls Hr). Qed.
Print Assumptions C30_second_finalize.

Example C30_second_case : sr_started (toy_sr0 0) /\
  let r := fst (sr_run (toy_sr0 0) [(1, toy_s 1); (2, toy_s 2)]) in
  is_ok (sr_finalize r) = true /\
  sr_finalize (toy_sr0 0) = Err FE_Incomplete.
Proof. split; [apply toy_sr0_started; auto|]. split; [vm_compute; reflexivity|]. apply err_of_eq. vm_compute. reflexivity. Qed.

(** C31.  Every signer j runs its own first round on the same context with its own key, and
    whatever arrives, the first nonce delivered to j for each other signer is that signer's.
    Then every first round finalizes.  In the second rounds anything may be delivered in any
    order: a round is complete exactly when each other signer's signature has arrived, and
    every complete round finalizes to one and the same signature, valid under the aggregated
    key, provided R1 + b*R2 is finite; otherwise every complete round fails. *)
Theorem C31_honest_sessions_agree {Pr : prims} {Laws : prims_ok Pr} {Tags : tags_ok Pr} (c : key_agg_ctx Pr) (r0 : nat -> first_round Pr) (seed : nat -> bytes) (sp : nat -> spices Pr) (sk : nat -> scalar Pr) (calls1 : nat -> list (nat * pub_nonce Pr)) (T : pt) (msg : bytes) (Hc : ctx_reachable c) (Hnew : forall j, j < length (pubkeys c) -> first_round_new c (seed j) j (sp j) = Ok (r0 j)) (Hsk : forall j pk, nth_error (pubkeys c) j = Some pk -> base_mul (sk j) = pk) (Hfirst : forall j i, j < length (pubkeys c) -> i < length (pubkeys c) -> on_file ((j, our_public_nonce (r0 j)) :: calls1 j) i = Some (our_public_nonce (r0 i))) :
  let n := length (pubkeys c) in
  let Q := aggregated_pubkey c in
  let R' := spec_R_raw c (agg_sum (map (fun j => our_public_nonce (r0 j)) (seq 0 n))) msg in
  let fin := fun j => fr_finalize_adaptor (fst (fr_run (r0 j) (calls1 j))) (sk j) T msg in
  (forall j, j < n -> exists sr s, fin j = Ok sr /\ our_signature sr = Ok s) /\
  (forall j sr calls2, j < n -> fin j = Ok sr ->
     (sr_is_complete (fst (sr_run sr calls2)) = true <->
      forall i sri s, i < n -> i <> j -> fin i = Ok sri -> our_signature sri = Ok s -> In (i, s) calls2)) /\
  (R' <> pt_O -> exists sg l,
     a_R sg = R' /\ adapt sg fzero = Some l /\
     verify_single_adaptor Q sg msg T = Ok tt /\
     (forall t l', T = gmul t -> adapt sg t = Some l' -> verify_single_lifted Q l' msg = Ok tt) /\
     (T = pt_O -> verify_single_lifted Q l msg = Ok tt /\
                  schnorr_verify msg (xbytes Q) (lifted_to_bytes l) = Ret true) /\
     forall j sr calls2, j < n -> fin j = Ok sr ->
       let r := fst (sr_run sr calls2) in
       sr_is_complete r = true -> sr_finalize_adaptor r = Ok sg /\ sr_finalize r = Ok l) /\
  (R' = pt_O -> forall j sr calls2, j < n -> fin j = Ok sr ->
       let r := fst (sr_run sr calls2) in
       sr_is_complete r = true ->
       sr_finalize_adaptor r = Err (FE_InvalidAggregatedSignature VE_BadSignature)).
Proof. exact (@C31_honest_sessions_agree_proof Pr Laws Tags c r0 seed sp sk calls1 T msg Hc Hnew Hsk Hfirst). Qed.
Print Assumptions C31_honest_sessions_agree.

(** Three signers; nonces and signatures arrive in another order, among garbage. *)
Example C31_case : ctx_reachable toy_c /\ length (pubkeys toy_c) = 3 /\
  (forall j, j < 3 -> first_round_new toy_c toy_seed j spices_new = Ok (toy_r0 j)) /\
  map base_mul toy_sks = pubkeys toy_c /\
  forallb (fun j => forallb (fun i =>
     match on_file ((j, toy_pn j) :: (5, toy_pn 2) :: toy_ncalls) i with
     | Some pn => pubnonce_eqb pn (toy_pn i) | None => false end) [0; 1; 2]) [0; 1; 2] = true /\
  forallb (fun j =>
     ok_and (sr_finalize (fst (sr_run (toy_sr0 j) ((2, tsc 9 : mscalar Toy) :: toy_scalls))))
       (fun l => is_ok (verify_single_lifted (aggregated_pubkey toy_c) l toy_msg))) [0; 1; 2] = true.
Proof.
  split; [exact toy_c_reach|]. split; [vm_compute; reflexivity|]. split; [exact toy_r0_eq|].
  split; [symmetry; apply (map_base_toy toy_sks); vm_compute; reflexivity|]. split; vm_compute; reflexivity.
Qed.

(** C32.  Finishing an adaptor session with [finalize] returns a signature whenever
    [finalize_adaptor] does.  Its nonce is the even form of R and its s that of the adaptor
    signature, so it is accepted by [verify_single] only if
    +-R + e_{R+T}*P = +-R + e_R*P, the signs being the parities of R + T and R; when these
    parities agree, exactly if the two challenges collide. *)
Theorem C32_adaptor_session_plain_finalize {Pr : prims} {Laws : prims_ok Pr} {Tags : tags_ok Pr} (r0 : second_round Pr) (calls : list (nat * mscalar Pr)) (Hr : sr_started r0) :
  let r := fst (sr_run r0 calls) in
  let T := sr_adaptor r0 in
  let Q := aggregated_pubkey (sr_ctx r0) in
  let msg := sr_message r0 in
  let e := fun A : pt => (int_from_bytes (SpecBIP327.tagged_hash "BIP0340/challenge"%string (xbytes A ++ xbytes Q ++ msg)) mod n_)%Z in
  let P := if has_even_y Q then pval Q else pt_neg Q in
  (forall er, sr_finalize r = Err er <-> sr_finalize_adaptor r = Err er) /\
  (forall sg, sr_finalize_adaptor r = Ok sg ->
     let R := a_R sg in
     exists l, sr_finalize r = Ok l /\ pval (l_R l) = (if has_even_y R then R else pt_neg R) /\ l_s l = a_s sg /\
       (verify_single_lifted Q l msg = Ok tt <->
          pt_add (if has_even_y (pt_add R T) then R else pt_neg R) (point_mul P (e (pt_add R T)))
          = pt_add (if has_even_y R then R else pt_neg R) (point_mul P (e R))) /\
       (has_even_y (pt_add R T) = has_even_y R ->
          (verify_single_lifted Q l msg = Ok tt <-> e (pt_add R T) = e R))).
Proof. exact (@C32_adaptor_session_plain_finalize_proof Pr Laws Tags r0 calls Hr). Qed.
Print Assumptions C32_adaptor_session_plain_finalize.

Example C32_case : sr_started (toy_srT 1) /\ sr_adaptor (toy_srT 1) = toy_T /\
  is_ok (sr_finalize_adaptor (fst (sr_run (toy_srT 1) toy_scallsT))) = true.
Proof. split; [apply toy_srT_started; auto|]. split; [unfold toy_srT; apply toy_sr_adaptor | vm_compute; reflexivity]. Qed.

(** src/rounds.rs:420-422 says that [finalize] "will return
    RoundFinalizeError::InvalidAggregatedSignature" after [FirstRound::finalize_adaptor].  Here
    it returns Ok with a signature that [verify_single] rejects. *)
Theorem C32_documented_error_refuted :
  exists (r0 : second_round Toy) (calls : list (nat * mscalar Toy)) (l : lifted_sig Toy),
    sr_started r0 /\ sr_adaptor r0 <> pt_O /\
    sr_finalize (fst (sr_run r0 calls)) = Ok l /\
    verify_single_lifted (aggregated_pubkey (sr_ctx r0)) l (sr_message r0) = Err VE_BadSignature.
Proof. exact C32_documented_error_refuted_proof. Qed.
Print Assumptions C32_documented_error_refuted.

(** C33.  [finalize_adaptor] of the first round accepts any member's key.  Our signature is
    valid for our index exactly when the challenge is 0 or the coefficient-weighted public
    keys agree.  When it is not valid, our slot cannot be corrected, and unless R1 + b*R2 is
    infinite no later finalize of this round succeeds. *)
Theorem C33_wrong_member_key {Pr : prims} {Laws : prims_ok Pr} {Tags : tags_ok Pr} (r0 : first_round Pr) (calls : list (nat * pub_nonce Pr)) (sk : scalar Pr) (T : pt) (msg : bytes) (sr : second_round Pr) (pk : point Pr) (Hr : fr_started r0) (Hpk : nth_error (pubkeys (fr_ctx r0)) (fr_index r0) = Some pk) (Hfin : fr_finalize_adaptor (fst (fr_run r0 calls)) sk T msg = Ok sr) :
  let c := fr_ctx r0 in
  let i := fr_index r0 in
  let an := aggregated_nonce sr in
  In (base_mul sk) (pubkeys c) /\
  exists ours, our_signature sr = Ok ours /\
  (sr_valid sr i ours <->
     v_e (spec_values c an T msg) = 0%Z \/
     point_mul (base_mul sk) (spec_a c (base_mul sk)) = point_mul pk (spec_a c pk)) /\
  (~ sr_valid sr i ours -> forall scalls,
     let r := fst (sr_run sr scalls) in
     (forall s, sr_valid sr i s ->
        receive_signature r i s = (r, Err (RoundContributionError i InconsistentContribution))) /\
     (spec_R_raw c an msg <> pt_O ->
        sr_finalize_adaptor r = Err FE_Incomplete \/
        sr_finalize_adaptor r = Err (FE_InvalidAggregatedSignature VE_BadSignature))).
Proof. exact (@C33_wrong_member_key_proof Pr Laws Tags r0 calls sk T msg sr pk Hr Hpk Hfin). Qed.
Print Assumptions C33_wrong_member_key.

(** Signer 0 (key a) finalizes with the key of signer 1; everyone else signs honestly and the
    final signature is refused. *)
Example C33_case : fr_started (toy_r0 0) /\
  is_ok (fr_finalize_adaptor (fst (fr_run (toy_r0 0) toy_ncalls)) sk_b pt_O toy_msg) = true /\
  sr_holdouts (fst (sr_run (toy_sr sk_b pt_O toy_msg 0) toy_scalls)) = [] /\
  sr_finalize_adaptor (fst (sr_run (toy_sr sk_b pt_O toy_msg 0) toy_scalls))
  = Err (FE_InvalidAggregatedSignature VE_BadSignature).
Proof.
  split; [apply toy_r0_started; auto|]. split; [vm_compute; reflexivity|]. split; [vm_compute; reflexivity|].
  apply err_of_eq. vm_compute. reflexivity.
Qed.

(** C34.  With the sum of the same public nonces, in any order, [sign_for_aggregator] returns
    the partial signature that finalizing the complete round stores, also before any nonce
    has been received; with a stranger's key both report the same error. *)
Theorem C34_aggregator_mode {Pr : prims} {Laws : prims_ok Pr} {Tags : tags_ok Pr} (r0 : first_round Pr) (calls : list (nat * pub_nonce Pr)) (sk : scalar Pr) (T : pt) (msg : bytes) (pns : list (pub_nonce Pr)) (Hr : fr_started r0) (Hpns : Permutation (slot_vec (fr_slots (fst (fr_run r0 calls)))) (map Some pns)) :
  let r := fst (fr_run r0 calls) in
  let an := agg_sum pns in
  (forall sr, fr_finalize_adaptor r sk T msg = Ok sr -> exists s, our_signature sr = Ok s /\
     sign_for_aggregator_adaptor r sk T msg an = Ok s /\
     sign_for_aggregator_adaptor r0 sk T msg an = Ok s) /\
  (forall sr, fr_finalize r sk msg = Ok sr -> exists s, our_signature sr = Ok s /\
     sign_for_aggregator r sk msg an = Ok s /\
     sign_for_aggregator r0 sk msg an = Ok s) /\
  (forall e, fr_finalize_adaptor r sk T msg = Err (FE_SigningError e) <-> sign_for_aggregator_adaptor r sk T msg an = Err e) /\
  (forall e, fr_finalize r sk msg = Err (FE_SigningError e) <-> sign_for_aggregator r sk msg an = Err e) /\
  fr_finalize_adaptor r sk T msg <> Err FE_Incomplete.
Proof. exact (@C34_aggregator_mode_proof Pr Laws Tags r0 calls sk T msg pns Hr Hpns). Qed.
Print Assumptions C34_aggregator_mode.

Example C34_case : fr_started (toy_r0 1) /\
  slot_vec (fr_slots (fst (fr_run (toy_r0 1) toy_ncalls))) = map Some [toy_pn 0; toy_pn 1; toy_pn 2] /\
  is_ok (sign_for_aggregator (toy_r0 1) sk_b toy_msg (agg_sum [toy_pn 2; toy_pn 0; toy_pn 1])) = true.
Proof.
  split; [apply toy_r0_started; auto|]. split; [apply toy_slots_recorded|]. vm_compute. reflexivity.
Qed.
