(** Somebody who watches a signer from outside: they know the key aggregation context, the signer's
    position and public nonce, see every call with the public key in the place of the secret key,
    and every reply.  From this [watch] computes what the control flow of the signer shows. *)
From Coq Require Import String List Arith.
From Verif Require Import Bytes Prims TaggedHashes Errors SpecTags SpecBIP327 KeyAgg Nonces Signature Rounds SpecView SpecSession SpecRounds
  SpecMachine ControlFlow SpecFlow.
Import ListNotations.
Local Open Scope string_scope.
Local Open Scope list_scope.
Local Open Scope nat_scope.

Section SpecWatch.
Context {Pr : prims}.

(** The calls of [mcall], without secrets. *)
Inductive pcall : Type :=
| PNonce (i : nat) (n : pub_nonce Pr)
| PSign (P : point Pr) (T : pt) (msg : bytes)
| PSignFor (P : point Pr) (T : pt) (msg : bytes) (an : agg_nonce Pr)
| PSignature (i : nat) (s : mscalar Pr)
| PFinish
| PFinishAdaptor.
(** The public key in the place of the secret key. *)
Definition public_call (k : mcall Pr) : pcall :=
  match k with
  | CNonce i n => PNonce i n
  | CSign sk T msg => PSign (base_mul sk) T msg
  | CSignFor sk T msg an => PSignFor (base_mul sk) T msg an
  | CSignature i s => PSignature i s
  | CFinish => PFinish
  | CFinishAdaptor => PFinishAdaptor
  end.
(** One entry of the transcript. *)
Definition public_entry (e : mcall Pr * mreply Pr) : pcall * mreply Pr := (public_call (fst e), snd e).

(** What the watcher keeps: the contributions delivered, the signer's own first. *)
Inductive watcher : Type :=
| WNonces (c : key_agg_ctx Pr) (own : nat) (file : list (nat * pub_nonce Pr))
| WSignatures (c : key_agg_ctx Pr) (own : nat) (an : agg_nonce Pr) (T : pt) (msg : bytes) (file : list (nat * mscalar Pr))
| WGone.

(** The signers among the first [n] with nothing on file. *)
Definition gaps {A} (n : nat) (file : list (nat * A)) : list nat :=
  filter (fun j => negb (present (on_file file j))) (seq 0 n).
(** Filing the contribution [v] of signer [i]: the last position is its place among the gaps. *)
Definition slot_flow {A} (eqb : A -> A -> bool) (n : nat) (file : list (nat * A)) (i : nat) (v : A) : list event :=
  if i <? n then
    [ Branch "rounds.rs:29" false; Index "rounds.rs:38" i ] ++
    match on_file file i with
    | Some old => [ Branch "rounds.rs:38" true; Branch "rounds.rs:39" (eqb v old) ]
    | None => [ Branch "rounds.rs:38" false; Index "rounds.rs:46" i; Index "rounds.rs:48" (List.length (gaps i file)) ]
    end
  else [ Branch "rounds.rs:29" true ].
(** There is another contribution of signer [i] on file. *)
Definition conflict {A} (eqb : A -> A -> bool) (file : list (nat * A)) (i : nat) (v : A) : bool :=
  match on_file file i with Some old => negb (eqb v old) | None => false end.
(** Collecting all contributions, until the first gap. *)
Definition collect_flow {A} (n : nat) (file : list (nat * A)) : list event :=
  match gaps n file with
  | [] => repeat (Branch "rounds.rs:62" false) n
  | j :: _ => repeat (Branch "rounds.rs:62" false) j ++ [ Branch "rounds.rs:62" true ]
  end.
(** The contributions on file, in order. *)
Definition filed {A} (n : nat) (file : list (nat * A)) : list A :=
  flat_map (fun j => match on_file file j with Some v => [v] | None => [] end) (seq 0 n).

(** The last position of a key. *)
Fixpoint last_position (l : list (point Pr)) (P : point Pr) : option nat :=
  match l with
  | [] => None
  | Q :: l' =>
      match last_position l' P with
      | Some j => Some (S j)
      | None => if pt_eqb P Q then Some 0 else None
      end
  end.
(** Signing with the secret key of [P]. *)
Definition key_flow (c : key_agg_ctx Pr) (P : point Pr) (an : agg_nonce Pr) (T : pt) (msg : bytes) : list event :=
  match last_position (pubkeys c) P with
  | Some i => signing_flow c i an T msg
  | None => stranger_flow
  end.
(** Checking a partial signature of the key [P]. *)
Definition checking_flow (c : key_agg_ctx Pr) (P : point Pr) (an : agg_nonce Pr) (T : pt) (msg : bytes) (bad : bool) : list event :=
  [ Branch "key_agg.rs:463" false; Index "key_agg.rs:464" (match last_position (pubkeys c) P with Some j => j | None => 0 end);
    Branch "signing.rs:162" false; Size "nonces.rs:619" (zlen msg); Branch "nonces.rs:639" (is_infinite (spec_R_raw c an msg));
    Branch "signing.rs:173" (negb (has_even_y (pt_add (v_R (spec_values c an T msg)) T))); Size "signing.rs:30" (zlen msg);
    Branch "signing.rs:184" bad ].
(** Aggregating the partial signatures on file. *)
Definition finish_flow (c : key_agg_ctx Pr) (an : agg_nonce Pr) (T : pt) (msg : bytes) (file : list (nat * mscalar Pr))
    (bad : bool) : list event :=
  let n := List.length (pubkeys c) in
  collect_flow n file ++
  match gaps n file with
  | [] => [ Branch "rounds.rs:450" false; Size "nonces.rs:619" (zlen msg); Branch "nonces.rs:639" (is_infinite (spec_R_raw c an msg));
            Size "signing.rs:30" (zlen msg); Branch "sig_agg.rs:39" (has_even_y (pt_add (v_R (spec_values c an T msg)) T));
            Branch "sig_agg.rs:46" bad; Branch "rounds.rs:457" bad ]
  | _ => [ Branch "rounds.rs:450" true ]
  end.

(** What a reply tells: the partial signature released, whether a signature was found invalid, whether
    the last step failed. *)
Definition told_signature (r : mreply Pr) : mscalar Pr := match r with RPartial (Ok s) => s | _ => fzero end.
(** A partial signature was refused as invalid. *)
Definition told_invalid (r : mreply Pr) : bool :=
  match r with RReceived (Err (RoundContributionError _ InvalidSignature)) => true | _ => false end.
(** There is no final signature. *)
Definition told_failure (r : mreply Pr) : bool :=
  match r with RFinal (Ok _) | RFinalAdaptor (Ok _) => false | _ => true end.

(** What one call shows, and what the watcher keeps after it. *)
Definition watch (w : watcher) (k : pcall) (reply : mreply Pr) : list event * watcher :=
  match w, k with
  | WNonces c own file, PNonce i pn =>
      (slot_flow pubnonce_eqb (List.length (pubkeys c)) file i pn, WNonces c own (file ++ [(i, pn)]))
  | WNonces c own file, PSign P T msg =>
      let n := List.length (pubkeys c) in
      let an := agg_sum (filed n file) in
      match gaps n file with
      | [] =>
          match last_position (pubkeys c) P with
          | Some i =>
              (collect_flow n file ++ [ Branch "rounds.rs:221" false ] ++ signing_flow c i an T msg ++ [ Branch "rounds.rs:231" false ]
               ++ slot_flow mscalar_eqb n [] own (told_signature reply) ++ [ Index "rounds.rs:362" own ],
               WSignatures c own an T msg [(own, told_signature reply)])
          | None =>
              (collect_flow n file ++ [ Branch "rounds.rs:221" false ] ++ stranger_flow ++ [ Branch "rounds.rs:231" true ], WGone)
          end
      | _ => (collect_flow n file ++ [ Branch "rounds.rs:221" true ], WGone)
      end
  | WNonces c own file, PSignFor P T msg an => (key_flow c P an T msg, WGone)
  | WSignatures c own an T msg file, PSignature i s =>
      match nth_error (pubkeys c) i with
      | None => ([ Branch "rounds.rs:387" true ], w)
      | Some P =>
          let bad := told_invalid reply in
          let before := [ Branch "rounds.rs:387" false; Index "rounds.rs:395" i ] ++ checking_flow c P an T msg bad
                        ++ [ Branch "rounds.rs:398" bad ] in
          if bad then (before, w)
          else (before ++ slot_flow mscalar_eqb (List.length (pubkeys c)) file i s ++ [ Branch "rounds.rs:401" (conflict mscalar_eqb file i s) ],
                WSignatures c own an T msg (file ++ [(i, s)]))
      end
  | WSignatures c own an T msg file, PFinish =>
      let bad := told_failure reply in
      (finish_flow c an T msg file bad ++ [ Branch "rounds.rs:428" bad ]
       ++ (if bad then [] else [ Branch "signature.rs:190" false ]), WGone)
  | WSignatures c own an T msg file, PFinishAdaptor => (finish_flow c an T msg file (told_failure reply), WGone)
  | _, _ => ([], w)
  end.
(** A whole transcript. *)
Fixpoint watch_all (w : watcher) (transcript : list (pcall * mreply Pr)) : list event :=
  match transcript with
  | [] => []
  | (k, reply) :: rest => let (l, w') := watch w k reply in l ++ watch_all w' rest
  end.

(** What shows of the nonce builder of a round (src/rounds.rs:109-114): public key, aggregated key and
    the four bytes of the index are always given. *)
Definition round_shape (sp : spices Pr) : shape :=
  Shape (present (sp_seckey sp)) true true (option_map zlen (sp_message sp)) (4%Z :: map zlen (sp_extra_inputs sp)).

End SpecWatch.
Arguments pcall Pr : clear implicits.
Arguments watcher Pr : clear implicits.
