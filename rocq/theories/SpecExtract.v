(** Sums over the members of a group, and worlds that differ only in the hash function. *)
From Verif Require Import Bytes Prims TaggedHashes SpecBIP327.
Local Open Scope Z_scope.

Section Sums.
Context {Pr : prims}.

(** The sum of [f] over the members different from [P], and how often [P] is a member. *)
Definition same (P K : point Pr) : bool := pt_eqb (pval K) (pval P).
(** The sum over the members different from [P]. *)
Definition others (P : point Pr) (pks : list (point Pr)) (f : point Pr -> Z) : Z :=
  fold_right Z.add 0 (map f (filter (fun K => negb (same P K)) pks)).
(** How often [P] is a member. *)
Definition copies (P : point Pr) (pks : list (point Pr)) : Z :=
  Z.of_nat (length (filter (same P) pks)).

(** The coefficient of the member [K], by the reference. *)
Definition coeff_in (pks : list (point Pr)) (K : point Pr) : Z :=
  key_agg_coeff (map (fun K : point Pr => cbytes K) pks) (cbytes K).

End Sums.

(** The same curve with another hash function. *)
Definition with_hash (Pr : prims) (h : bytes -> bytes) : prims := {|
  pt := @pt Pr; pt_O := @pt_O Pr; pt_G := @pt_G Pr; pt_add := @pt_add Pr; pt_neg := @pt_neg Pr;
  pt_eqb := @pt_eqb Pr; pt_odd := @pt_odd Pr; pt_x := @pt_x Pr; pt_lift := @pt_lift Pr;
  ord_m1 := @ord_m1 Pr; sha256 := h; rng := @rng Pr; G_fin := @G_fin Pr |}.

(** A point, seen with another hash function. *)
Definition rehash {Pr : prims} (h : bytes -> bytes) (P : point Pr) : point (with_hash Pr h) :=
  @Point_ (with_hash Pr h) (pval P) (p_fin P).
