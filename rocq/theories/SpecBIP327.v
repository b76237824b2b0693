(** Independent specification: a transcription of /repo/reference.py (BIP327).

    Works on byte strings and integers, as the Python code does, and shares with the
    model only the primitives (group, lift_x, SHA-256) and the byte helpers of
    Bytes.v.  [Optional[Point]] is [pt] with [pt_O] for [None]. *)
From Coq Require Import String.
From Verif Require Import Bytes Prims SpecTags.
Open Scope Z_scope.

(** Python control flow: a value, [ValueError], [InvalidContributionError(signer,
    contrib)], or a failed [assert]. *)
Inductive contrib : Type := CPubkey | CPubnonce | CAggnonce | CPsig.
(** The result of a Python function. *)
Inductive py (A : Type) : Type :=
| Ret (a : A)
| ValueError
| InvalidContribution (signer : option nat) (c : contrib)
| AssertFailed.
Arguments Ret {A} a.
Arguments ValueError {A}.
Arguments InvalidContribution {A} signer c.
Arguments AssertFailed {A}.

(** Python sequencing: an exception ends the computation. *)
Definition py_bind {A B} (r : py A) (f : A -> py B) : py B :=
  match r with
  | Ret a => f a
  | ValueError => ValueError
  | InvalidContribution s c => InvalidContribution s c
  | AssertFailed => AssertFailed
  end.
(** [try: r except ValueError: raise InvalidContributionError(i, c)]. *)
Definition py_blame {A} (i : option nat) (c : contrib) (r : py A) : py A :=
  match r with ValueError => InvalidContribution i c | _ => r end.
(** [assert b]. *)
Definition py_assert {A} (b : bool) (r : py A) : py A := if b then r else AssertFailed.
(** [if not b: raise ValueError]. *)
Definition py_check {A} (b : bool) (r : py A) : py A := if b then r else ValueError.

Notation "'let*' x ':=' r 'in' f" := (py_bind r (fun x => f))
  (at level 200, x pattern, r at level 100, f at level 200).

Section Reference.
Context {Pr : prims}.
(** reference.py:20. *)
Definition n_ : Z := Zpos ord.

(** reference.py:30-32. *)
Definition tagged_hash (tag : string) (msg : bytes) : bytes :=
  sha256 (sha256 (ascii_bytes tag) ++ sha256 (ascii_bytes tag) ++ msg).
(** reference.py:34. *)
Definition is_infinite (P : pt) : bool := pt_eqb P pt_O.
(** reference.py:59-65. *)
Definition point_mul (P : pt) (k : Z) : pt := smul k P.
(** reference.py:67-68. *)
Definition bytes_from_int (z : Z) : bytes := be_enc 32 z.
(** reference.py:80-81. *)
Definition int_from_bytes (b : bytes) : Z := be_dec b.
(** reference.py:83-85, 135-136 (the assertions cannot fail where used: the
    argument is checked to be finite before). *)
Definition has_even_y (P : pt) : bool := negb (pt_odd P).
(** reference.py:135-136. *)
Definition xbytes (P : pt) : bytes := pt_x P.
(** reference.py:138-140. *)
Definition cbytes (P : pt) : bytes := (if has_even_y P then x02 else x03) :: xbytes P.
(** reference.py:142-146. *)
Definition cbytes_ext (P : pt) : bytes := if is_infinite P then be_enc 33 0 else cbytes P.
(** reference.py:153-166. *)
Definition cpoint (x : bytes) : py pt :=
  if negb (length x =? 33)%nat then ValueError else
  match pt_lift (firstn 32 (skipn 1 x)) with
  | None => ValueError
  | Some P =>
      match hd x00 x with
      | x02 => Ret P
      | x03 => Ret (pt_neg P)
      | _ => ValueError
      end
  end.
(** reference.py:168-172. *)
Definition cpoint_ext (x : bytes) : py pt :=
  if bytes_eqb x (be_enc 33 0) then Ret pt_O else cpoint x.
(** reference.py:175-181. *)
Definition individual_pk (seckey : bytes) : py bytes :=
  let d0 := int_from_bytes seckey in
  py_check ((1 <=? d0) && (d0 <=? n_ - 1)) (
  let P := point_mul pt_G d0 in
  py_assert (negb (is_infinite P)) (Ret (cbytes P))).

(** reference.py:187-189: (Q, gacc, tacc). *)
Record keyagg : Type := KeyAggCtx { Q_ : pt; gacc : Z; tacc : Z }.

(** reference.py:212-213. *)
Definition hash_keys (pubkeys : list bytes) : bytes :=
  tagged_hash "KeyAgg list" (concat pubkeys).
(** reference.py:215-220. *)
Definition get_second_key (pubkeys : list bytes) : bytes :=
  match pubkeys with
  | [] => repeat x00 33
  | p0 :: rest =>
      match find (fun pk => negb (bytes_eqb pk p0)) rest with
      | Some pk => pk
      | None => repeat x00 33
      end
  end.
(** reference.py:226-230. *)
Definition key_agg_coeff_internal (pubkeys : list bytes) (pk pk2 : bytes) : Z :=
  let L := hash_keys pubkeys in
  if bytes_eqb pk pk2 then 1
  else int_from_bytes (tagged_hash "KeyAgg coefficient" (L ++ pk)) mod n_.
(** reference.py:222-224. *)
Definition key_agg_coeff (pubkeys : list bytes) (pk : bytes) : Z :=
  key_agg_coeff_internal pubkeys pk (get_second_key pubkeys).

(** reference.py:199-205: the loop of [key_agg] from index [i] on. *)
Fixpoint key_agg_loop (pubkeys : list bytes) (pk2 : bytes) (i : nat) (l : list bytes) (Q : pt)
  : py pt :=
  match l with
  | [] => Ret Q
  | pk :: l' =>
      let* P := py_blame (Some i) CPubkey (cpoint pk) in
      let a := key_agg_coeff_internal pubkeys pk pk2 in
      key_agg_loop pubkeys pk2 (S i) l' (pt_add Q (point_mul P a))
  end.
(** reference.py:195-210. *)
Definition key_agg (pubkeys : list bytes) : py keyagg :=
  let* Q := key_agg_loop pubkeys (get_second_key pubkeys) 0 pubkeys pt_O in
  py_assert (negb (is_infinite Q)) (Ret (KeyAggCtx Q 1 0)).

(** reference.py:232-248. *)
Definition apply_tweak (ctx : keyagg) (tweak : bytes) (is_xonly : bool) : py keyagg :=
  py_check (length tweak =? 32)%nat (
  let g := if is_xonly && negb (has_even_y (Q_ ctx)) then n_ - 1 else 1 in
  let t := int_from_bytes tweak in
  py_check (negb (n_ <=? t)) (
  let Q' := pt_add (point_mul (Q_ ctx) g) (point_mul pt_G t) in
  py_check (negb (is_infinite Q')) (
  Ret (KeyAggCtx Q' (g * gacc ctx mod n_) ((t + g * tacc ctx) mod n_))))).

(** reference.py:253-264. *)
Definition nonce_hash (rand pk aggpk : bytes) (i : Z) (msg_prefixed extra_in : bytes) : Z :=
  let buf := rand ++ be_enc 1 (zlen pk) ++ pk ++ be_enc 1 (zlen aggpk) ++ aggpk
             ++ msg_prefixed ++ be_enc 4 (zlen extra_in) ++ extra_in ++ be_enc 1 i in
  int_from_bytes (tagged_hash "MuSig/nonce" buf).
(** reference.py:250-251. *)
Definition bytes_xor (a b : bytes) : bytes :=
  map (fun xy => z2b (Z.lxor (b2z (fst xy)) (b2z (snd xy)))) (combine a b).
(** reference.py:266-292. *)
Definition nonce_gen_internal (rand_ : bytes) (sk : option bytes) (pk : bytes)
    (aggpk msg extra_in : option bytes) : py (bytes * bytes) :=
  let rand := match sk with
              | Some sk => bytes_xor sk (tagged_hash "MuSig/aux" rand_)
              | None => rand_
              end in
  let aggpk := match aggpk with None => [] | Some a => a end in
  let msg_prefixed := match msg with
                      | None => [x00]
                      | Some m => [x01] ++ be_enc 8 (zlen m) ++ m
                      end in
  let extra_in := match extra_in with None => [] | Some e => e end in
  let k_1 := nonce_hash rand pk aggpk 0 msg_prefixed extra_in mod n_ in
  let k_2 := nonce_hash rand pk aggpk 1 msg_prefixed extra_in mod n_ in
  py_assert (negb (k_1 =? 0)) (
  py_assert (negb (k_2 =? 0)) (
  let R1 := point_mul pt_G k_1 in
  let R2 := point_mul pt_G k_2 in
  py_assert (negb (is_infinite R1)) (
  py_assert (negb (is_infinite R2)) (
  Ret (bytes_from_int k_1 ++ bytes_from_int k_2 ++ pk, cbytes R1 ++ cbytes R2))))).

(** reference.py:307-312: the inner loop of [nonce_agg] for component [j] in (0,1). *)
Fixpoint nonce_agg_loop (j : nat) (i : nat) (l : list bytes) (R : pt) : py pt :=
  match l with
  | [] => Ret R
  | pn :: l' =>
      let* Rij := py_blame (Some i) CPubnonce (cpoint (firstn 33 (skipn (j * 33) pn))) in
      nonce_agg_loop j (S i) l' (pt_add R Rij)
  end.
(** reference.py:302-314. *)
Definition nonce_agg (pubnonces : list bytes) : py bytes :=
  let* R1 := nonce_agg_loop 0 0 pubnonces pt_O in
  let* R2 := nonce_agg_loop 1 0 pubnonces pt_O in
  Ret (cbytes_ext R1 ++ cbytes_ext R2).

(** reference.py:316-320. *)
Record session : Type := SessionContext {
  s_aggnonce : bytes;
  s_pubkeys : list bytes;
  s_tweaks : list bytes;
  s_is_xonly : list bool;
  s_msg : bytes
}.

(** reference.py:326-328. *)
Fixpoint apply_tweaks (ctx : keyagg) (l : list (bytes * bool)) : py keyagg :=
  match l with
  | [] => Ret ctx
  | (t, x) :: l' => let* ctx' := apply_tweak ctx t x in apply_tweaks ctx' l'
  end.
(** reference.py:322-329. *)
Definition key_agg_and_tweak (pubkeys tweaks : list bytes) (is_xonly : list bool) : py keyagg :=
  py_check (length tweaks =? length is_xonly)%nat (
  let* ctx := key_agg pubkeys in
  apply_tweaks ctx (combine tweaks is_xonly)).

(** The tuple returned by [get_session_values]. *)
Record values : Type := Values {
  v_Q : pt; v_gacc : Z; v_tacc : Z; v_b : Z; v_R : pt; v_e : Z
}.
(** reference.py:331-345. *)
Definition get_session_values (sc : session) : py values :=
  let* ctx := key_agg_and_tweak (s_pubkeys sc) (s_tweaks sc) (s_is_xonly sc) in
  let b := int_from_bytes (tagged_hash "MuSig/noncecoef"
             (s_aggnonce sc ++ xbytes (Q_ ctx) ++ s_msg sc)) mod n_ in
  let* R1 := py_blame None CAggnonce (cpoint_ext (firstn 33 (s_aggnonce sc))) in
  let* R2 := py_blame None CAggnonce (cpoint_ext (firstn 33 (skipn 33 (s_aggnonce sc)))) in
  let R' := pt_add R1 (point_mul R2 b) in
  let R := if negb (is_infinite R') then R' else pt_G in
  let e := int_from_bytes (tagged_hash "BIP0340/challenge"
             (xbytes R ++ xbytes (Q_ ctx) ++ s_msg sc)) mod n_ in
  Ret (Values (Q_ ctx) (gacc ctx) (tacc ctx) b R e).

(** reference.py:347-352. *)
Definition get_session_key_agg_coeff (sc : session) (P : pt) : py Z :=
  let pk := cbytes P in
  py_check (existsb (bytes_eqb pk) (s_pubkeys sc)) (
  Ret (key_agg_coeff (s_pubkeys sc) pk)).

(** reference.py:435-450. *)
Definition partial_sig_verify_internal (psig pubnonce pk : bytes) (sc : session) : py bool :=
  let* v := get_session_values sc in
  let s := int_from_bytes psig in
  if n_ <=? s then Ret false else
  let* R1 := cpoint (firstn 33 pubnonce) in
  let* R2 := cpoint (firstn 33 (skipn 33 pubnonce)) in
  let Re_ := pt_add R1 (point_mul R2 (v_b v)) in
  let Re := if has_even_y (v_R v) then Re_ else pt_neg Re_ in
  let* P := cpoint pk in
  let* a := get_session_key_agg_coeff sc P in
  let g := if has_even_y (v_Q v) then 1 else n_ - 1 in
  let g' := g * v_gacc v mod n_ in
  Ret (pt_eqb (point_mul pt_G s) (pt_add Re (point_mul P (v_e v * a * g' mod n_)))).

(** reference.py:354-387 (the secret nonce is not overwritten here). *)
Definition sign (secnonce sk : bytes) (sc : session) : py bytes :=
  let* v := get_session_values sc in
  let k_1_ := int_from_bytes (firstn 32 secnonce) in
  let k_2_ := int_from_bytes (firstn 32 (skipn 32 secnonce)) in
  py_check ((0 <? k_1_) && (k_1_ <? n_)) (
  py_check ((0 <? k_2_) && (k_2_ <? n_)) (
  let k_1 := if has_even_y (v_R v) then k_1_ else n_ - k_1_ in
  let k_2 := if has_even_y (v_R v) then k_2_ else n_ - k_2_ in
  let d_ := int_from_bytes sk in
  py_check ((0 <? d_) && (d_ <? n_)) (
  let P := point_mul pt_G d_ in
  py_assert (negb (is_infinite P)) (
  let pk := cbytes P in
  py_check (bytes_eqb pk (firstn 33 (skipn 64 secnonce))) (
  let* a := get_session_key_agg_coeff sc P in
  let g := if has_even_y (v_Q v) then 1 else n_ - 1 in
  let d := g * v_gacc v * d_ mod n_ in
  let s := (k_1 + v_b v * k_2 + v_e v * a * d) mod n_ in
  let psig := bytes_from_int s in
  let R1 := point_mul pt_G k_1_ in
  let R2 := point_mul pt_G k_2_ in
  py_assert (negb (is_infinite R1)) (
  py_assert (negb (is_infinite R2)) (
  let* ok := partial_sig_verify_internal psig (cbytes R1 ++ cbytes R2) pk sc in
  py_assert ok (Ret psig)))))))).

(** reference.py:426-433. *)
Definition partial_sig_verify (psig : bytes) (pubnonces pubkeys tweaks : list bytes)
    (is_xonly : list bool) (msg : bytes) (i : nat) : py bool :=
  py_check (length pubnonces =? length pubkeys)%nat (
  py_check (length tweaks =? length is_xonly)%nat (
  let* aggnonce := nonce_agg pubnonces in
  let sc := SessionContext aggnonce pubkeys tweaks is_xonly msg in
  match nth_error pubnonces i, nth_error pubkeys i with
  | Some pn, Some pk => partial_sig_verify_internal psig pn pk sc
  | _, _ => AssertFailed (* IndexError *)
  end)).

(** reference.py:456-460: the loop of [partial_sig_agg]. *)
Fixpoint psig_sum (i : nat) (l : list bytes) (s : Z) : py Z :=
  match l with
  | [] => Ret s
  | ps :: l' =>
      let s_i := int_from_bytes ps in
      if n_ <=? s_i then InvalidContribution (Some i) CPsig
      else psig_sum (S i) l' ((s + s_i) mod n_)
  end.
(** reference.py:452-463. *)
Definition partial_sig_agg (psigs : list bytes) (sc : session) : py bytes :=
  let* v := get_session_values sc in
  let* s := psig_sum 0 psigs 0 in
  let g := if has_even_y (v_Q v) then 1 else n_ - 1 in
  let s := (s + v_e v * g * v_tacc v) mod n_ in
  Ret (xbytes (v_R v) ++ bytes_from_int s).

(** reference.py:87-103, for messages of any length (the 32-byte restriction of
    lines 88-89 was lifted from BIP340).  The comparison [r >= p] of line 97 is
    implied by [x(R) != r] failing, because x(R) < p; the x-only bytes are compared
    instead of the integers. *)
Definition schnorr_verify (msg pubkey sig : bytes) : py bool :=
  py_check (length pubkey =? 32)%nat (
  py_check (length sig =? 64)%nat (
  match pt_lift pubkey with
  | None => Ret false
  | Some P =>
      let s := int_from_bytes (firstn 32 (skipn 32 sig)) in
      if n_ <=? s then Ret false else
      let e := int_from_bytes (tagged_hash "BIP0340/challenge"
                 (firstn 32 sig ++ pubkey ++ msg)) mod n_ in
      let R := pt_add (point_mul pt_G s) (point_mul P (n_ - e)) in
      Ret (negb (is_infinite R) && has_even_y R && bytes_eqb (xbytes R) (firstn 32 sig))
  end)).

(** BIP340 "Default Signing" (the algorithm of the BIP text; not in
    reference.py): secret key bytes, 32 bytes of auxiliary randomness, message. *)
Definition schnorr_sign (sk aux msg : bytes) : py bytes :=
  let d_ := int_from_bytes sk in
  py_check ((0 <? d_) && (d_ <? n_)) (
  let P := point_mul pt_G d_ in
  let d := if has_even_y P then d_ else n_ - d_ in
  let t := bytes_xor (bytes_from_int d) (tagged_hash "BIP0340/aux" aux) in
  let rand := tagged_hash "BIP0340/nonce" (t ++ xbytes P ++ msg) in
  let k_ := int_from_bytes rand mod n_ in
  py_check (negb (k_ =? 0)) (
  let R := point_mul pt_G k_ in
  let k := if has_even_y R then k_ else n_ - k_ in
  let e := int_from_bytes (tagged_hash "BIP0340/challenge" (xbytes R ++ xbytes P ++ msg)) mod n_ in
  Ret (xbytes R ++ bytes_from_int ((k + e * d) mod n_)))).

End Reference.
