(** How values of the model are read as arguments and results of the reference
    functions of SpecBIP327.v, and the BIP341 key tweak. *)
From Coq Require Import String.
From Verif Require Import Bytes Prims SpecTags SpecBIP327 KeyAgg Nonces.
Open Scope Z_scope.

Section View.
Context {Pr : prims}.

(** A parity accumulator as the reference's [gacc] in {1, n-1}. *)
Definition gacc_of (par : bool) : Z := if par then n_ - 1 else 1.

(** A [KeyAggContext] as the reference's triple (Q, gacc, tacc). *)
Definition ref_ctx (c : key_agg_ctx Pr) : keyagg :=
  KeyAggCtx (pval (aggregated_pubkey c)) (gacc_of (parity_acc c)) (fz (tweak_acc c)).

(** Tweaks as bytes with their x-only flags. *)
Definition ref_tweaks (ts : list (scalar Pr * bool)) : list (bytes * bool) :=
  map (fun tx : scalar Pr * bool => (ser_scalar (fst tx), snd tx)) ts.

(** The reference's [SessionContext]. *)
Definition ref_session (an : agg_nonce Pr) (pks : list (point Pr))
    (ts : list (scalar Pr * bool)) (msg : bytes) : session :=
  SessionContext (aggnonce_to_bytes an) (map ser_point pks)
    (map (fun tx : scalar Pr * bool => ser_scalar (fst tx)) ts) (map snd ts) msg.

(** BIP341, "Constructing and spending Taproot outputs", [taproot_tweak_pubkey]:
<<
    def taproot_tweak_pubkey(pubkey, h):
        t = int_from_bytes(tagged_hash("TapTweak", pubkey + h))
        if t >= SECP256K1_ORDER:
            raise ValueError
        P = lift_x(int_from_bytes(pubkey))
        if P is None:
            raise ValueError
        Q = point_add(P, point_mul(G, t))
        return 0 if has_even_y(Q) else 1, bytes_from_int(x(Q))
>>
    Here the point Q itself is returned; an infinite Q fails the assertion of
    [has_even_y]. *)
Definition taproot_tweak_pubkey (pk h : bytes) : py pt :=
  let t := int_from_bytes (tagged_hash "TapTweak" (pk ++ h)) in
  if n_ <=? t then ValueError else
  match pt_lift pk with
  | None => ValueError
  | Some P =>
      let Q := pt_add P (point_mul pt_G t) in
      py_assert (negb (is_infinite Q)) (Ret Q)
  end.

(** The weighted sum of secret keys sum_i a_i * d_i, with the reference's coefficients,
    over the shorter of the two lists, as an integer. *)
Definition ref_seckey_sum (pks : list (point Pr)) (sks : list (scalar Pr)) : Z :=
  fold_right Z.add 0
    (map (fun p : point Pr * scalar Pr =>
            key_agg_coeff (map ser_point pks) (ser_point (fst p)) * fz (sval (snd p)))
         (combine pks sks)).

End View.
