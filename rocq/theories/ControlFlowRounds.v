(** The control flow of the round objects: the functions of Rounds.v and SigAgg.v again, recording
    branches, positions and lengths as in ControlFlow.v.  [Slots::new], [holdouts], [is_complete],
    [our_public_nonce] and [aggregated_nonce] have none of these.  The search for an open slot is one
    step of the standard library; the position it finds is recorded. *)
From Coq Require Import String List.
From Verif Require Import Bytes Prims TaggedHashes Errors KeyAgg Nonces Signature Signing SigAgg Rounds SpecMachine ControlFlow.
Import ListNotations.
Local Open Scope string_scope.
Local Open Scope list_scope.
Local Open Scope nat_scope.

Section Slots.
Context {T : Type} (teqb : T -> T -> bool).

(** src/rounds.rs:28-50 [Slots::place]. *)
Definition place_t (s : slots T) (v : T) (i : nat) : traced (slots T * res contribution_error unit) :=
  if List.length (slot_vec s) <=? i then
    see (Branch "rounds.rs:29" true)
      (ret (s, Err (RoundContributionError i (OutOfRange (List.length (slot_vec s))))))
  else
    see (Branch "rounds.rs:29" false)
    (match nth_error (slot_vec s) i with
     | None => ret (s, Panic)
     | Some (Some old) =>
         see (Index "rounds.rs:38" i) (see (Branch "rounds.rs:38" true)
         (if teqb v old then see (Branch "rounds.rs:39" true) (ret (s, Ok tt))
          else see (Branch "rounds.rs:39" false) (ret (s, Err (RoundContributionError i InconsistentContribution)))))
     | Some None =>
         see (Index "rounds.rs:38" i) (see (Branch "rounds.rs:38" false)
         (see (Index "rounds.rs:46" i)
         (match binary_search (open_slots s) i with
          | None =>
              ret ({| slot_vec := set_nth (slot_vec s) i (Some v); open_slots := open_slots s |}, Panic)
          | Some pos =>
              see (Index "rounds.rs:48" pos)
              (ret ({| slot_vec := set_nth (slot_vec s) i (Some v);
                       open_slots := remove_at (open_slots s) pos |}, Ok tt))
          end)))
     end).

(** src/rounds.rs:59-64 [finalize]: one branch for each value, until one is missing. *)
Fixpoint collect_t (l : list (option T)) : traced (res finalize_error (list T)) :=
  match l with
  | [] => ret (Ok [])
  | None :: _ => see (Branch "rounds.rs:62" true) (ret (Err FE_Incomplete))
  | Some v :: l' => see (Branch "rounds.rs:62" false)
      (next (collect_t l') (fun r => ret (bind r (fun vs => Ok (v :: vs)))))
  end.

End Slots.

Section Rounds.
Context {Pr : prims}.

(** src/rounds.rs:98-127 [FirstRound::new]. *)
Definition first_round_new_t (c : key_agg_ctx Pr) (seed : bytes) (i : nat) (sp : spices Pr)
  : traced (res signer_index_error (first_round Pr)) :=
  match get_pubkey c i with
  | None => see (Branch "rounds.rs:106" true) (ret (Err (SignerIndexError i (List.length (pubkeys c)))))
  | Some pk =>
      see (Branch "rounds.rs:106" false)
      (match round_builder c seed i pk sp with
       | Ok b =>
           next (build_t b) (fun sn =>
           next (place_t pubnonce_eqb (slots_new (List.length (pubkeys c))) (public_nonce sn) i) (fun o =>
           match o with
           | (s, Ok _) => ret (Ok {| fr_ctx := c; fr_index := i; fr_secnonce := sn; fr_slots := s |})
           | _ => ret Panic
           end))
       | _ => ret Panic
       end)
  end.

(** src/rounds.rs:145-151 [receive_nonce]. *)
Definition receive_nonce_t (r : first_round Pr) (i : nat) (n : pub_nonce Pr)
  : traced (first_round Pr * res contribution_error unit) :=
  next (place_t pubnonce_eqb (fr_slots r) n i) (fun p =>
  ret ({| fr_ctx := fr_ctx r; fr_index := fr_index r; fr_secnonce := fr_secnonce r; fr_slots := fst p |}, snd p)).

(** src/rounds.rs:211-249 [FirstRound::finalize_adaptor]. *)
Definition fr_finalize_adaptor_t (r : first_round Pr) (sk : scalar Pr) (T : pt) (msg : bytes)
  : traced (res finalize_error (second_round Pr)) :=
  next (collect_t (slot_vec (fr_slots r))) (fun o =>
  early "rounds.rs:221" o (fun pns =>
  let an := agg_sum pns in
  next (sign_partial_adaptor_t (fr_ctx r) sk (fr_secnonce r) an T msg) (fun o =>
  early "rounds.rs:231" (map_err FE_SigningError o) (fun ps =>
  next (place_t mscalar_eqb (slots_new (List.length pns)) ps (fr_index r)) (fun p =>
  match p with
  | (s, Ok _) =>
      ret (Ok {| sr_ctx := fr_ctx r; sr_index := fr_index r; sr_pubnonces := pns;
                 sr_aggnonce := an; sr_adaptor := T; sr_message := msg; sr_slots := s |})
  | _ => ret Panic
  end))))).

(** src/rounds.rs:315-333 [sign_for_aggregator_adaptor]. *)
Definition sign_for_aggregator_adaptor_t (r : first_round Pr) (sk : scalar Pr) (T : pt) (msg : bytes)
    (an : agg_nonce Pr) : traced (res signing_error (mscalar Pr)) :=
  sign_partial_adaptor_t (fr_ctx r) sk (fr_secnonce r) an T msg.

(** src/rounds.rs:361-365 [our_signature]. *)
Definition our_signature_t (r : second_round Pr) : traced (res Empty_set (mscalar Pr)) :=
  match nth_error (slot_vec (sr_slots r)) (sr_index r) with
  | Some (Some s) => see (Index "rounds.rs:362" (sr_index r)) (ret (Ok s))
  | _ => ret Panic
  end.

(** src/rounds.rs:379-404 [receive_signature]. *)
Definition receive_signature_t (r : second_round Pr) (i : nat) (s : mscalar Pr)
  : traced (second_round Pr * res contribution_error unit) :=
  match get_pubkey (sr_ctx r) i with
  | None => see (Branch "rounds.rs:387" true)
      (ret (r, Err (RoundContributionError i (OutOfRange (List.length (pubkeys (sr_ctx r)))))))
  | Some pk =>
      see (Branch "rounds.rs:387" false)
      (match nth_error (sr_pubnonces r) i with
       | None => ret (r, Panic)
       | Some pn =>
           see (Index "rounds.rs:395" i)
           (next (verify_partial_adaptor_t (sr_ctx r) s (sr_aggnonce r) (sr_adaptor r) pk pn (sr_message r)) (fun o =>
            match o with
            | Panic => ret (r, Panic)
            | Err _ => see (Branch "rounds.rs:398" true) (ret (r, Err (RoundContributionError i InvalidSignature)))
            | Ok _ =>
                see (Branch "rounds.rs:398" false)
                (next (place_t mscalar_eqb (sr_slots r) s i) (fun p =>
                 match snd p with
                 | Panic => ret (sr_set_slots r (fst p), Panic)
                 | Err e => see (Branch "rounds.rs:401" true) (ret (sr_set_slots r (fst p), Err e))
                 | Ok u => see (Branch "rounds.rs:401" false) (ret (sr_set_slots r (fst p), Ok u))
                 end))
            end))
       end)
  end.

(** src/sig_agg.rs:17-55 [aggregate_partial_adaptor_signatures]. *)
Definition aggregate_t (c : key_agg_ctx Pr) (an : agg_nonce Pr)
    (T : pt) (sigs : list (mscalar Pr)) (msg : bytes) : traced (res verify_error (adaptor_sig Pr)) :=
  let Q := pubkey c in
  next (nonce_coefficient_t an Q msg) (fun b =>
  next (final_nonce_t an b) (fun final =>
  let adapted := pt_add final T in
  next (challenge_t (pt_x adapted) Q msg) (fun e =>
  let s := fadd (fsum sigs) (fneg_if (pt_odd Q) (fmul e (tweak_acc c))) in
  next (if negb (pt_odd adapted) then see (Branch "sig_agg.rs:39" true) (ret final)
        else see (Branch "sig_agg.rs:39" false) (ret (neg_point final))) (fun en =>
  if negb (pt_eqb (gmul s) (pt_add en (pmul e (even_point Q))))
  then see (Branch "sig_agg.rs:46" true) (ret (Err VE_BadSignature))
  else see (Branch "sig_agg.rs:46" false) (ret (Ok {| a_R := final; a_s := s |})))))).

(** src/rounds.rs:449-459 [SecondRound::finalize_adaptor]. *)
Definition sr_finalize_adaptor_t (r : second_round Pr) : traced (res finalize_error (adaptor_sig Pr)) :=
  next (collect_t (slot_vec (sr_slots r))) (fun o =>
  early "rounds.rs:450" o (fun ps =>
  next (aggregate_t (sr_ctx r) (sr_aggnonce r) (sr_adaptor r) ps (sr_message r)) (fun o =>
  early "rounds.rs:457" (map_err FE_InvalidAggregatedSignature o) (fun sg => ret (Ok sg))))).

(** src/rounds.rs:423-433 [SecondRound::finalize]. *)
Definition sr_finalize_t (r : second_round Pr) : traced (res finalize_error (lifted_sig Pr)) :=
  next (sr_finalize_adaptor_t r) (fun o =>
  early "rounds.rs:428" o (fun sg =>
  next (adapt_t sg fzero) (fun l => ret (unwrap l)))).

(** One call of SpecMachine.v on a round (src/rounds.rs). *)
Definition mstep_t (p : phase Pr) (k : mcall Pr) : option (traced (phase Pr * mreply Pr)) :=
  match p, k with
  | Collecting r, CNonce i n =>
      Some (next (receive_nonce_t r i n) (fun x => ret (Collecting (fst x), RReceived (snd x))))
  | Collecting r, CSign sk T msg =>
      Some (next (fr_finalize_adaptor_t r sk T msg) (fun o =>
        match o with
        | Ok sr => next (our_signature_t sr) (fun o =>
            ret (Signing sr, RPartial (match o with Ok s => Ok s | _ => Panic end)))
        | Err e => ret (Consumed, RPartial (Err e))
        | Panic => ret (Consumed, RPartial Panic)
        end))
  | Collecting r, CSignFor sk T msg an =>
      Some (next (sign_for_aggregator_adaptor_t r sk T msg an) (fun o => ret (Consumed, RFor o)))
  | Signing r, CSignature i s =>
      Some (next (receive_signature_t r i s) (fun x => ret (Signing (fst x), RReceived (snd x))))
  | Signing r, CFinish => Some (next (sr_finalize_t r) (fun o => ret (Consumed, RFinal o)))
  | Signing r, CFinishAdaptor => Some (next (sr_finalize_adaptor_t r) (fun o => ret (Consumed, RFinalAdaptor o)))
  | _, _ => None
  end.

(** Any sequence of calls on a round, as [mrun] (src/rounds.rs). *)
Fixpoint mrun_t (p : phase Pr) (calls : list (mcall Pr)) : traced (phase Pr * list (mcall Pr * mreply Pr)) :=
  match calls with
  | [] => ret (p, [])
  | k :: ks =>
      match mstep_t p k with
      | None => mrun_t p ks
      | Some m => next m (fun x => next (mrun_t (fst x) ks) (fun y => ret (fst y, (k, snd x) :: snd y)))
      end
  end.

End Rounds.
