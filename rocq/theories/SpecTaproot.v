(** BIP341's secret-key tweak, transcribed from the BIP. *)
From Coq Require Import String List.
From Verif Require Import Bytes Prims SpecBIP327.
Import ListNotations.
Open Scope list_scope.
Open Scope Z_scope.

Section Taproot.
Context {Pr : prims}.

(** BIP341, "Constructing and spending Taproot outputs", [taproot_tweak_seckey]:
<<
    def taproot_tweak_seckey(seckey0, h):
        seckey0 = int_from_bytes(seckey0)
        P = point_mul(G, seckey0)
        seckey = seckey0 if has_even_y(P) else SECP256K1_ORDER - seckey0
        t = int_from_bytes(tagged_hash("TapTweak", bytes_from_int(x(P)) + h))
        if t >= SECP256K1_ORDER:
            raise ValueError
        return bytes_from_int((seckey + t) % SECP256K1_ORDER)
>>
    An infinite P fails the assertion of [has_even_y]. *)
Definition taproot_tweak_seckey (seckey0 h : bytes) : py bytes :=
  let d0 := int_from_bytes seckey0 in
  let P := point_mul pt_G d0 in
  py_assert (negb (is_infinite P))
    (let d := if has_even_y P then d0 else n_ - d0 in
     let t := int_from_bytes (tagged_hash "TapTweak" (xbytes P ++ h)) in
     if n_ <=? t then ValueError else Ret (bytes_from_int ((d + t) mod n_))).

End Taproot.
