(** Independent specification: the curve arithmetic and the BIP340 verifier of
    /repo/reference.py, on integers as in the Python code.  [None] is the point at
    infinity; a point is a pair of coordinates.  It shares only SHA-256 (Sha256.v) and
    the byte helpers of Bytes.v with the model. *)
From Coq Require Import String Zpow_facts.
From Verif Require Import Bytes Sha256 SpecTags.
Open Scope Z_scope.

(** reference.py:19-20 [p], [n]. *)
Definition py_p : Z := 0xFFFFFFFFFFFFFFFFFFFFFFFFFFFFFFFFFFFFFFFFFFFFFFFFFFFFFFFEFFFFFC2F.
(** reference.py:20 [n]. *)
Definition py_n : Z := 0xFFFFFFFFFFFFFFFFFFFFFFFFFFFFFFFEBAAEDCE6AF48A03BBFD25E8CD0364141.
(** reference.py:26 [Point]. *)
Definition py_point : Type := option (Z * Z).
(** reference.py:24 [G]. *)
Definition py_G : py_point :=
  Some (0x79BE667EF9DCBBAC55A06295CE870B07029BFCDB2DCE28D959F2815B16F81798,
        0x483ADA7726A3C4655DA4FBFC0E1108A8FD17B448A68554199C47D08FFB10D4B8).
(** Python's [pow(a, k, p)]. *)
Definition py_pow (a k : Z) : Z := Zpow_mod a k py_p.

(** reference.py:45-57. *)
Definition py_point_add (P1 P2 : py_point) : py_point :=
  match P1, P2 with
  | None, _ => P2
  | _, None => P1
  | Some (x1, y1), Some (x2, y2) =>
      if (x1 =? x2) && negb (y1 =? y2) then None else
      let lam := if (x1 =? x2) && (y1 =? y2)
                 then (3 * x1 * x1 * py_pow (2 * y1) (py_p - 2)) mod py_p
                 else ((y2 - y1) * py_pow (x2 - x1) (py_p - 2)) mod py_p in
      let x3 := (lam * lam - x1 - x2) mod py_p in
      Some (x3, (lam * (x1 - x3) - y1) mod py_p)
  end.
(** reference.py:59-65: the loop from bit [i], for [k] more bits. *)
Fixpoint py_mul_loop (k : nat) (i n : Z) (P R : py_point) : py_point :=
  match k with
  | O => R
  | S k => py_mul_loop k (i + 1) n (py_point_add P P)
             (if Z.testbit n i then py_point_add R P else R)
  end.
(** reference.py:59-65. *)
Definition py_point_mul (P : py_point) (n : Z) : py_point := py_mul_loop 256 0 n P None.
(** reference.py:70-78. *)
Definition py_lift_x (b : bytes) : py_point :=
  let x := be_dec b in
  if py_p <=? x then None else
  let y_sq := (py_pow x 3 + 7) mod py_p in
  let y := py_pow y_sq ((py_p + 1) / 4) in
  if negb (py_pow y 2 =? y_sq) then None else
  Some (x, if Z.even y then y else py_p - y).
(** reference.py:30-32. *)
Definition py_tagged_hash (tag : string) (msg : bytes) : bytes :=
  sha256_fips (sha256_fips (ascii_bytes tag) ++ sha256_fips (ascii_bytes tag) ++ msg).
(** reference.py:87-104, for messages of any length (the ValueErrors for wrong lengths of
    key and signature are [false]). *)
Definition py_schnorr_verify (msg pubkey sig : bytes) : bool :=
  (length pubkey =? 32)%nat && (length sig =? 64)%nat &&
  let r := be_dec (firstn 32 sig) in
  let s := be_dec (firstn 32 (skipn 32 sig)) in
  match py_lift_x pubkey with
  | None => false
  | Some P =>
      if (py_p <=? r) || (py_n <=? s) then false else
      let e := be_dec (py_tagged_hash "BIP0340/challenge" (firstn 32 sig ++ pubkey ++ msg)) mod py_n in
      match py_point_add (py_point_mul py_G s) (py_point_mul (Some P) (py_n - e)) with
      | None => false
      | Some (xR, yR) => Z.even yR && (xR =? r)
      end
  end.

(** The points of the curve y^2 = x^3 + 7, with coordinates in [0, p). *)
Definition py_on (P : py_point) : Prop :=
  match P with
  | None => True
  | Some (x, y) => 0 <= x < py_p /\ 0 <= y < py_p /\ (y * y) mod py_p = (x * x * x + 7) mod py_p
  end.
(** The opposite point. *)
Definition py_neg (P : py_point) : py_point :=
  match P with None => None | Some (x, y) => Some (x, (- y) mod py_p) end.
