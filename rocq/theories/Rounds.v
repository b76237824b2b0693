(** src/rounds.rs: the two-round state machine. *)
From Verif Require Import Bytes Prims TaggedHashes Errors KeyAgg Nonces Signature Signing SigAgg.
Open Scope nat_scope.

(** *** Slots *)
Section Slots.
Context {T : Type} (teqb : T -> T -> bool).

(** src/rounds.rs:12-15 [Slots]. *)
Record slots : Type := Slots { slot_vec : list (option T); open_slots : list nat }.

(** src/rounds.rs:19-24 [Slots::new]. *)
Definition slots_new (n : nat) : slots :=
  {| slot_vec := repeat None n; open_slots := seq 0 n |}.

(** [self.slots[index] = v]. (src/rounds.rs:46.) *)
Fixpoint set_nth {A} (l : list A) (i : nat) (v : A) : list A :=
  match l, i with
  | [], _ => []
  | _ :: l', O => v :: l'
  | x :: l', S i' => x :: set_nth l' i' v
  end.

(** [slice::binary_search]: the standard halving search on a slice, giving
    [Some] of the position found.  The fuel bounds the number of halvings; it is
    the slice length, which always suffices.  (The library may probe in another
    order; on a strictly increasing slice the answer is the same.) (src/rounds.rs:48.) *)
Fixpoint bsearch (fuel : nat) (l : list nat) (x : nat) (lo hi : nat) : option nat :=
  match fuel with
  | O => None
  | S f =>
      if hi <=? lo then None
      else
        let mid := lo + (hi - lo) / 2 in
        match nth_error l mid with
        | None => None
        | Some y =>
            if y =? x then Some mid
            else if y <? x then bsearch f l x (S mid) hi
            else bsearch f l x lo mid
        end
  end.
(** [bsearch] on a whole slice, with enough fuel (src/rounds.rs:48). *)
Definition binary_search (l : list nat) (x : nat) : option nat :=
  bsearch (S (length l)) l x 0 (length l).

(** [Vec::remove(pos)]. (src/rounds.rs:48.) *)
Definition remove_at {A} (l : list A) (pos : nat) : list A := firstn pos l ++ skipn (S pos) l.

(** src/rounds.rs:28-50 [Slots::place].  The new state is returned beside the
    result; the slot is written before the search for the open index can panic. *)
Definition place (s : slots) (v : T) (i : nat) : slots * res contribution_error unit :=
  if length (slot_vec s) <=? i then
    (s, Err (RoundContributionError i (OutOfRange (length (slot_vec s)))))
  else
    match nth_error (slot_vec s) i with
    | None => (s, Panic)
    | Some (Some old) =>
        if teqb v old then (s, Ok tt)
        else (s, Err (RoundContributionError i InconsistentContribution))
    | Some None =>
        match binary_search (open_slots s) i with
        | None =>
            ({| slot_vec := set_nth (slot_vec s) i (Some v); open_slots := open_slots s |}, Panic)
        | Some pos =>
            ({| slot_vec := set_nth (slot_vec s) i (Some v);
                open_slots := remove_at (open_slots s) pos |}, Ok tt)
        end
    end.

(** src/rounds.rs:53-55 [remaining]. *)
Definition remaining (s : slots) : list nat := open_slots s.

(** src/rounds.rs:59-64 [finalize]: all values, or [Incomplete]. *)
Fixpoint collect (l : list (option T)) : res finalize_error (list T) :=
  match l with
  | [] => Ok []
  | None :: _ => Err FE_Incomplete
  | Some v :: l' => bind (collect l') (fun vs => Ok (v :: vs))
  end.
(** src/rounds.rs:59-64 [Slots::finalize]. *)
Definition slots_finalize (s : slots) : res finalize_error (list T) := collect (slot_vec s).

End Slots.
Arguments slots T : clear implicits.

Section Rounds.
Context {Pr : prims}.

(** [==] on [PubNonce] (derived) and on [MaybeScalar]. (Used through src/rounds.rs:39.) *)
Definition pubnonce_eqb (a b : pub_nonce Pr) : bool :=
  pt_eqb (pR1 a) (pR1 b) && pt_eqb (pR2 a) (pR2 b).
(** [==] on [MaybeScalar], used through src/rounds.rs:39. *)
Definition mscalar_eqb (a b : mscalar Pr) : bool := feqb a b.

(** src/rounds.rs:77-82 [FirstRound]. *)
Record first_round : Type := FirstRound {
  fr_ctx : key_agg_ctx Pr;
  fr_index : nat;
  fr_secnonce : sec_nonce Pr;
  fr_slots : slots (pub_nonce Pr)
}.

(** src/rounds.rs:109-114: the nonce builder of a round ([signer_index as u32] is
    truncated by [be_enc 4]). *)
Definition round_builder (c : key_agg_ctx Pr) (seed : bytes) (i : nat) (pk : point Pr)
    (sp : spices Pr) : res Empty_set (builder Pr) :=
  bind (with_extra_input
          (with_aggregated_pubkey (with_pubkey (builder_new seed) pk) (aggregated_pubkey c))
          (be_enc 4 (Z.of_nat i)))
       (fun b => with_spices b sp).

(** src/rounds.rs:98-127 [FirstRound::new]. *)
Definition first_round_new (c : key_agg_ctx Pr) (seed : bytes) (i : nat) (sp : spices Pr)
  : res signer_index_error first_round :=
  match get_pubkey c i with
  | None => Err (SignerIndexError i (length (pubkeys c)))
  | Some pk =>
      match round_builder c seed i pk sp with
      | Ok b =>
          let sn := build b in
          match place pubnonce_eqb (slots_new (length (pubkeys c))) (public_nonce sn) i with
          | (s, Ok _) =>
              Ok {| fr_ctx := c; fr_index := i; fr_secnonce := sn; fr_slots := s |}
          | _ => Panic
          end
      | _ => Panic
      end
  end.

(** src/rounds.rs:130-132 [our_public_nonce]. *)
Definition our_public_nonce (r : first_round) : pub_nonce Pr := public_nonce (fr_secnonce r).

(** src/rounds.rs:138-140 [FirstRound::holdouts]. *)
Definition fr_holdouts (r : first_round) : list nat := remaining (fr_slots r).

(** src/rounds.rs:145-151 [receive_nonce]. *)
Definition receive_nonce (r : first_round) (i : nat) (n : pub_nonce Pr)
  : first_round * res contribution_error unit :=
  let (s, o) := place pubnonce_eqb (fr_slots r) n i in
  ({| fr_ctx := fr_ctx r; fr_index := fr_index r; fr_secnonce := fr_secnonce r;
      fr_slots := s |}, o).

(** src/rounds.rs:154-156 [FirstRound::is_complete]. *)
Definition fr_is_complete (r : first_round) : bool :=
  match fr_holdouts r with [] => true | _ => false end.

(** src/rounds.rs:341-349 [SecondRound]. *)
Record second_round : Type := SecondRound {
  sr_ctx : key_agg_ctx Pr;
  sr_index : nat;
  sr_pubnonces : list (pub_nonce Pr);
  sr_aggnonce : agg_nonce Pr;
  sr_adaptor : pt;
  sr_message : bytes;
  sr_slots : slots (mscalar Pr)
}.

(** src/rounds.rs:211-249 [FirstRound::finalize_adaptor]. *)
Definition fr_finalize_adaptor (r : first_round) (sk : scalar Pr) (T : pt) (msg : bytes)
  : res finalize_error second_round :=
  bind (slots_finalize (fr_slots r)) (fun pns =>
  let an := agg_sum pns in
  bind (map_err FE_SigningError
          (sign_partial_adaptor (fr_ctx r) sk (fr_secnonce r) an T msg)) (fun ps =>
  match place mscalar_eqb (slots_new (length pns)) ps (fr_index r) with
  | (s, Ok _) =>
      Ok {| sr_ctx := fr_ctx r; sr_index := fr_index r; sr_pubnonces := pns;
            sr_aggnonce := an; sr_adaptor := T; sr_message := msg; sr_slots := s |}
  | _ => Panic
  end)).

(** src/rounds.rs:178-187 [FirstRound::finalize]. *)
Definition fr_finalize (r : first_round) (sk : scalar Pr) (msg : bytes)
  : res finalize_error second_round :=
  fr_finalize_adaptor r sk pt_O msg.

(** src/rounds.rs:275-291 [sign_for_aggregator]. *)
Definition sign_for_aggregator (r : first_round) (sk : scalar Pr) (msg : bytes)
    (an : agg_nonce Pr) : res signing_error (mscalar Pr) :=
  sign_partial (fr_ctx r) sk (fr_secnonce r) an msg.

(** src/rounds.rs:315-333 [sign_for_aggregator_adaptor]. *)
Definition sign_for_aggregator_adaptor (r : first_round) (sk : scalar Pr) (T : pt) (msg : bytes)
    (an : agg_nonce Pr) : res signing_error (mscalar Pr) :=
  sign_partial_adaptor (fr_ctx r) sk (fr_secnonce r) an T msg.

(** src/rounds.rs:356-358 [aggregated_nonce]. *)
Definition aggregated_nonce (r : second_round) : agg_nonce Pr := sr_aggnonce r.

(** src/rounds.rs:361-365 [our_signature]: indexing and [unwrap] may panic. *)
Definition our_signature (r : second_round) : res Empty_set (mscalar Pr) :=
  match nth_error (slot_vec (sr_slots r)) (sr_index r) with
  | Some (Some s) => Ok s
  | _ => Panic
  end.

(** src/rounds.rs:371-373 [SecondRound::holdouts]. *)
Definition sr_holdouts (r : second_round) : list nat := remaining (sr_slots r).

(** Writing the field [partial_signature_slots] (src/rounds.rs:401-402). *)
Definition sr_set_slots (r : second_round) (s : slots (mscalar Pr)) : second_round :=
  {| sr_ctx := sr_ctx r; sr_index := sr_index r; sr_pubnonces := sr_pubnonces r;
     sr_aggnonce := sr_aggnonce r; sr_adaptor := sr_adaptor r; sr_message := sr_message r;
     sr_slots := s |}.

(** src/rounds.rs:379-404 [receive_signature]; [self.pubnonces[signer_index]] may
    panic. *)
Definition receive_signature (r : second_round) (i : nat) (s : mscalar Pr)
  : second_round * res contribution_error unit :=
  match get_pubkey (sr_ctx r) i with
  | None => (r, Err (RoundContributionError i (OutOfRange (length (pubkeys (sr_ctx r))))))
  | Some pk =>
      match nth_error (sr_pubnonces r) i with
      | None => (r, Panic)
      | Some pn =>
          match verify_partial_adaptor (sr_ctx r) s (sr_aggnonce r) (sr_adaptor r) pk pn
                                       (sr_message r) with
          | Panic => (r, Panic)
          | Err _ => (r, Err (RoundContributionError i InvalidSignature))
          | Ok _ =>
              let (sl, o) := place mscalar_eqb (sr_slots r) s i in
              (sr_set_slots r sl, o)
          end
      end
  end.

(** src/rounds.rs:407-409 [SecondRound::is_complete]. *)
Definition sr_is_complete (r : second_round) : bool :=
  match sr_holdouts r with [] => true | _ => false end.

(** src/rounds.rs:449-459 [SecondRound::finalize_adaptor]. *)
Definition sr_finalize_adaptor (r : second_round) : res finalize_error (adaptor_sig Pr) :=
  bind (slots_finalize (sr_slots r)) (fun ps =>
  map_err FE_InvalidAggregatedSignature
    (aggregate_partial_adaptor_signatures (sr_ctx r) (sr_aggnonce r) (sr_adaptor r) ps
       (sr_message r))).

(** src/rounds.rs:423-433 [SecondRound::finalize]; the [expect] may panic. *)
Definition sr_finalize (r : second_round) : res finalize_error (lifted_sig Pr) :=
  bind (sr_finalize_adaptor r) (fun sg => unwrap (adapt sg fzero)).

End Rounds.
Arguments first_round Pr : clear implicits.
Arguments second_round Pr : clear implicits.
