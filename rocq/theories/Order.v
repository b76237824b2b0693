(** Orders: the derived [Ord] of the nonce types (src/nonces.rs:513, 543), and the sorting of
    keys that the documentation recommends (src/key_agg.rs:49-51, 76) and src/key_sort.rs tests. *)
From Verif Require Import Bytes Prims KeyAgg Nonces.
Open Scope Z_scope.

(** [Ord] of [u8] and of arrays of them: lexicographic.
    (Order used by the derives at src/nonces.rs:513, 543 and by src/key_sort.rs:19.) *)
Fixpoint bytes_cmp (a b : bytes) : comparison :=
  match a, b with
  | [], [] => Eq
  | [], _ :: _ => Lt
  | _ :: _, [] => Gt
  | x :: a', y :: b' => match b2z x ?= b2z y with Eq => bytes_cmp a' b' | c => c end
  end.

(** src/nonces.rs:513, 543: the derived comparison of a struct goes field by field. *)
Definition then_cmp (c d : comparison) : comparison := match c with Eq => d | _ => c end.

Section Order.
Context {Pr : prims}.

(** [Ord] of the [secp] crate's [Point], used in src/key_sort.rs:19 and src/nonces.rs:513:
    that crate is not part of the sources; assumed to compare compressed encodings, as the
    vectors of src/key_sort.rs require. *)
Definition point_cmp (P Q : point Pr) : comparison := bytes_cmp (ser_point P) (ser_point Q).
(** [Ord] of the [secp] crate's [MaybePoint], used in src/nonces.rs:543: derived for the enum
    with the variants [Infinity] and [Valid(Point)], assumed to be in this order. *)
Definition mpoint_cmp (P Q : pt) : comparison :=
  match not_inf P, not_inf Q with
  | None, None => Eq
  | None, Some _ => Lt
  | Some _, None => Gt
  | Some P', Some Q' => point_cmp P' Q'
  end.
(** src/nonces.rs:513-519, derived [Ord] of [PubNonce]. *)
Definition pubnonce_cmp (a b : pub_nonce Pr) : comparison :=
  then_cmp (point_cmp (pR1 a) (pR1 b)) (point_cmp (pR2 a) (pR2 b)).
(** src/nonces.rs:543-549, derived [Ord] of [AggNonce]. *)
Definition aggnonce_cmp (a b : agg_nonce Pr) : comparison :=
  then_cmp (mpoint_cmp (aR1 a) (aR1 b)) (mpoint_cmp (aR2 a) (aR2 b)).

(** src/key_sort.rs:19, src/key_agg.rs:76 [pubkeys.sort()]: the standard library's stable sort,
    written as insertion before the first greater element. *)
Fixpoint insert_key (P : point Pr) (l : list (point Pr)) : list (point Pr) :=
  match l with
  | [] => [P]
  | Q :: l' => match point_cmp P Q with Gt => Q :: insert_key P l' | _ => P :: l end
  end.
(** Sorting by repeated insertion (src/key_sort.rs:19, src/key_agg.rs:76). *)
Definition sort_keys (l : list (point Pr)) : list (point Pr) := fold_right insert_key [] l.

End Order.
