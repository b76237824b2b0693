(** What partial signatures made with one secret nonce tell about the secret key: the equation
    that each of them states, for an observer who knows everything else. *)
From Coq Require Import String List.
From Verif Require Import Bytes Prims SpecTags SpecBIP327 KeyAgg Nonces SpecView SpecSession.
Local Open Scope Z_scope.

Section Reuse.
Context {Pr : prims}.

(** One use of a secret nonce: the session and the partial signature that came out of it. *)
Record use : Type := Use {
  use_ctx : key_agg_ctx Pr;
  use_aggnonce : agg_nonce Pr;
  use_adaptor : pt;
  use_message : bytes;
  use_signature : mscalar Pr
}.

(** The values of the session: b, R, e and so on (reference.py:331-346). *)
Definition use_values (u : use) : values :=
  spec_values (use_ctx u) (use_aggnonce u) (use_adaptor u) (use_message u).

(** The sign of the nonces in the partial signature (reference.py:365-366). *)
Definition use_sign (u : use) : Z :=
  if has_even_y (pt_add (v_R (use_values u)) (use_adaptor u)) then 1 else -1.

(** What the secret key is multiplied by (reference.py:377-378): e * a * g * gacc. *)
Definition use_weight (pk : point Pr) (u : use) : Z :=
  v_e (use_values u) * spec_a (use_ctx u) pk * (spec_g (use_values u) * v_gacc (use_values u)).

(** The nonces k_1, k_2 and the key x would give this partial signature (reference.py:378). *)
Definition explains (pk : point Pr) (u : use) (k_1 k_2 x : Z) : Prop :=
  fz (use_signature u)
  = (use_sign u * (k_1 + v_b (use_values u) * k_2) + use_weight pk u * x) mod n_.

(** The point (b, +-e*a*g*gacc) of the use is on the line of height p at 0 and slope q. *)
Definition on_line (pk : point Pr) (p q : Z) (u : use) : Prop :=
  (use_sign u * use_weight pk u) mod n_ = (p + q * v_b (use_values u)) mod n_.

End Reuse.
Arguments use Pr : clear implicits.
