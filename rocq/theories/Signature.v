(** src/signature.rs: compact, lifted and adaptor signatures. *)
From Verif Require Import Bytes Prims Errors.
Open Scope Z_scope.

Section Signature.
Context {Pr : prims}.

(** src/signature.rs:30-36 [CompactSignature]; [rx] has 32 bytes. *)
Record compact_sig : Type := CompactSignature { c_rx : bytes; c_s : mscalar Pr }.
(** src/signature.rs:79-82 [LiftedSignature]. *)
Record lifted_sig : Type := LiftedSignature { l_R : point Pr; l_s : mscalar Pr }.
(** src/signature.rs:158-161 [AdaptorSignature]. *)
Record adaptor_sig : Type := AdaptorSignature { a_R : pt; a_s : mscalar Pr }.

(** src/signature.rs:40-45 [CompactSignature::new]. *)
Definition compact_new (R : point Pr) (s : mscalar Pr) : compact_sig :=
  {| c_rx := pt_x R; c_s := s |}.

(** src/signature.rs:49-52 [lift_nonce]; [None] is [InvalidPointBytes]. *)
Definition lift_nonce (sg : compact_sig) : option lifted_sig :=
  match lift_x (c_rx sg) with
  | None => None
  | Some R => Some {| l_R := R; l_s := c_s sg |}
  end.

(** src/signature.rs:90-95 [LiftedSignature::new]. *)
Definition lifted_new (R : point Pr) (s : mscalar Pr) : lifted_sig :=
  {| l_R := even_point R; l_s := s |}.

(** src/signature.rs:99-101 [compact], also [From<LiftedSignature> for CompactSignature]
    (lines 345-350). *)
Definition compact (sg : lifted_sig) : compact_sig := compact_new (l_R sg) (l_s sg).

(** src/signature.rs:168-173 [AdaptorSignature::new]. *)
Definition adaptor_new (R : pt) (s : mscalar Pr) : adaptor_sig := {| a_R := R; a_s := s |}.

(** src/signature.rs:185-193 [adapt]. *)
Definition adapt (sg : adaptor_sig) (t : mscalar Pr) : option lifted_sig :=
  match not_inf (pt_add (a_R sg) (gmul t)) with
  | None => None
  | Some N => Some (lifted_new N (fadd (a_s sg) (fneg_if (pt_odd N) t)))
  end.

(** src/signature.rs:196-202 [AdaptorSignature::encrypt]. *)
Definition adaptor_encrypt (sg : adaptor_sig) (t : scalar Pr) : adaptor_sig :=
  {| a_R := psub (a_R sg) (gmul t); a_s := fsub (a_s sg) t |}.

(** src/signature.rs:104-106 [LiftedSignature::encrypt]. *)
Definition lifted_encrypt (sg : lifted_sig) (t : scalar Pr) : adaptor_sig :=
  adaptor_encrypt (adaptor_new (l_R sg) (l_s sg)) t.

(** src/signature.rs:208-222 [reveal_secret]. *)
Definition reveal_secret (sg : adaptor_sig) (final : lifted_sig) : option (mscalar Pr) :=
  let t := fsub (l_s final) (a_s sg) in
  let T := gmul t in
  if pt_eqb T (psub (l_R final) (a_R sg)) then Some t
  else if pt_eqb T (pt_add (l_R final) (a_R sg)) then Some (fneg t)
  else None.

(** *** Encodings *)

(** src/signature.rs:261-266 [CompactSignature::to_bytes]. *)
Definition compact_to_bytes (sg : compact_sig) : bytes := c_rx sg ++ ser_scalar (c_s sg).

(** src/signature.rs:270-277 [CompactSignature::from_bytes]. *)
Definition compact_from_bytes (b : bytes) : res decode_error compact_sig :=
  if negb (length b =? 64)%nat then Err (BadLength (length b)) else
  match parse_mscalar (skipn 32 b) with
  | None => Err InvalidScalar
  | Some s => Ok {| c_rx := firstn 32 b; c_s := s |}
  end.

(** src/signature.rs:286-288 [LiftedSignature::to_bytes]. *)
Definition lifted_to_bytes (sg : lifted_sig) : bytes := compact_to_bytes (compact sg).

(** src/signature.rs:292-295 [LiftedSignature::from_bytes]. *)
Definition lifted_from_bytes (b : bytes) : res decode_error lifted_sig :=
  bind (compact_from_bytes b) (fun c => ok_or (lift_nonce c) InvalidPoint).

(** src/signature.rs:303-308 [AdaptorSignature::to_bytes]. *)
Definition adaptor_to_bytes (sg : adaptor_sig) : bytes :=
  ser_mpoint (a_R sg) ++ ser_scalar (a_s sg).

(** src/signature.rs:312-319 [AdaptorSignature::from_bytes]. *)
Definition adaptor_from_bytes (b : bytes) : res decode_error adaptor_sig :=
  if negb (length b =? 65)%nat then Err (BadLength (length b)) else
  match parse_mpoint (firstn 33 b) with
  | None => Err InvalidPoint
  | Some R =>
      match parse_mscalar (skipn 33 b) with
      | None => Err InvalidScalar
      | Some s => Ok {| a_R := R; a_s := s |}
      end
  end.

End Signature.
Arguments compact_sig Pr : clear implicits.
Arguments lifted_sig Pr : clear implicits.
Arguments adaptor_sig Pr : clear implicits.
