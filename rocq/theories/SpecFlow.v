(** What the control flow of the secret-handling functions is allowed to depend on: explicit
    lists of events made from public values, and the few bits that come from secrets. *)
From Coq Require Import String List.
From Verif Require Import Bytes Prims TaggedHashes SpecTags SpecBIP327 KeyAgg Nonces SpecView SpecSession SpecNonces SpecHashing ControlFlow.
Import ListNotations.
Local Open Scope string_scope.
Local Open Scope list_scope.
Local Open Scope Z_scope.

Section SpecFlow.
Context {Pr : prims}.

(** Signing with the key at position [i]: the events depend on the position, the length of the
    message and two public points, R1 + b*R2 and R + T. *)
Definition signing_flow (c : key_agg_ctx Pr) (i : nat) (an : agg_nonce Pr) (T : pt) (msg : bytes) : list event :=
  let infinite := is_infinite (spec_R_raw c an msg) in
  let R := v_R (spec_values c an T msg) in
  [ Branch "key_agg.rs:452" false; Index "key_agg.rs:453" i; Branch "signing.rs:65" false;
    Size "nonces.rs:619" (zlen msg); Branch "nonces.rs:639" infinite; Size "signing.rs:30" (zlen msg);
    Branch "key_agg.rs:463" false; Index "key_agg.rs:464" i; Branch "signing.rs:162" false;
    Size "nonces.rs:619" (zlen msg); Branch "nonces.rs:639" infinite;
    Branch "signing.rs:173" (negb (has_even_y (pt_add R T))); Size "signing.rs:30" (zlen msg);
    Branch "signing.rs:184" false; Branch "signing.rs:99" false ].
(** Signing with a key that is not a member. *)
Definition stranger_flow : list event := [ Branch "key_agg.rs:452" true; Branch "signing.rs:65" true ].

(** What shows of a nonce builder: which fields are there, and the lengths of the message and of
    each extra input. *)
Record shape : Type := Shape {
  has_seckey : bool; has_pubkey : bool; has_aggpk : bool;
  message_length : option Z; extra_lengths : list Z
}.
(** Whether a field is there. *)
Definition present {A} (o : option A) : bool := match o with Some _ => true | None => false end.
(** The shape of a builder. *)
Definition shape_of (b : builder Pr) : shape :=
  Shape (present (b_seckey b)) (present (b_pubkey b)) (present (b_aggregated_pubkey b))
        (option_map zlen (b_message b)) (map zlen (b_extra_inputs b)).
(** Whether nonce number [i] of a builder comes from a hash that is zero modulo the order: the only
    other thing that shows. *)
Definition zero_nonce (b : builder Pr) (i : byte) : bool := hash_int (UseNonce (request_of b) i) =? 0.
(** The events of building a nonce. *)
Definition nonce_flow (sh : shape) (zero1 zero2 : bool) : list event :=
  [ Branch "nonces.rs:334" (has_seckey sh); Branch "nonces.rs:353" (has_pubkey sh); Branch "nonces.rs:361" (has_aggpk sh) ]
  ++ (match message_length sh with
      | None => [ Branch "nonces.rs:369" false ]
      | Some l => [ Branch "nonces.rs:369" true; Size "nonces.rs:374" l ]
      end)
  ++ (match extra_lengths sh with
      | [] => [ Branch "nonces.rs:379" false ]
      | ls => Branch "nonces.rs:379" true :: map (Size "nonces.rs:388") ls
      end)
  ++ [ Branch "nonces.rs:396" zero1; Branch "nonces.rs:400" zero2 ].

(** Whether the BIP340 nonce hash of a single signer is zero modulo the order. *)
Definition zero_solo (sk : scalar Pr) (msg seed : bytes) : bool :=
  let P := point_mul pt_G (fz sk) in
  let d := if has_even_y P then fz sk else n_ - fz sk in
  hash_int (UseSoloNonce (bytes_xor (bytes_from_int d) (hash_of (UseSoloSeed seed))) (xbytes P) msg) =? 0.
(** The events of signing alone, with or without an adaptor point. *)
Definition solo_adaptor_flow (len : Z) (zero : bool) : list event :=
  [ Size "bip340.rs:55" len; Branch "bip340.rs:61" zero; Size "signing.rs:30" len ].
(** Without an adaptor point the nonce is finally adapted by zero. *)
Definition solo_flow (len : Z) (zero : bool) : list event :=
  solo_adaptor_flow len zero ++ [ Branch "signature.rs:190" false ].

(** The events of RFC 6979: one more for each candidate refused. *)
Definition rfc6979_flow (len : Z) (refused : nat) : list event :=
  Size "deterministic.rs:38" len :: repeat (Branch "deterministic.rs:74" false) refused
  ++ [ Branch "deterministic.rs:74" true ].

(** The point sum_i a_i * P_i over the shorter of the two lists, with the reference's coefficients. *)
Definition weighted_points (pks Ps : list (point Pr)) : pt :=
  psum (map (fun p : point Pr * point Pr =>
               point_mul (snd p) (key_agg_coeff (map ser_point pks) (ser_point (fst p))))
            (combine pks Ps)).
(** gacc * sum_i a_i * P_i + tacc * G. *)
Definition claimed_key (c : key_agg_ctx Pr) (Ps : list (point Pr)) : pt :=
  pt_add (point_mul (weighted_points (pubkeys c) Ps) (gacc_of (parity_acc c))) (point_mul pt_G (fz (tweak_acc c))).
(** The events of aggregating secret keys whose public keys are [Ps]: they depend on the public keys only. *)
Definition seckey_flow (c : key_agg_ctx Pr) (Ps : list (point Pr)) : list event :=
  if (length Ps <=? length (pubkeys c))%nat then
    repeat (Branch "key_agg.rs:477" false) (length Ps)
    ++ (if is_infinite (claimed_key c Ps) then [ Branch "key_agg.rs:482" true ]
        else [ Branch "key_agg.rs:482" false;
               Branch "key_agg.rs:484" (negb (pt_eqb (claimed_key c Ps) (aggregated_pubkey c))) ])
  else repeat (Branch "key_agg.rs:477" false) (length (pubkeys c)) ++ [ Branch "key_agg.rs:477" true ].

End SpecFlow.
