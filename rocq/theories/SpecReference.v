(** Independent specification: /repo/reference.py, lines 19-463, on integers, pairs of
    coordinates and byte strings, with every assertion and every exception of the Python
    code.  Nothing is abstract here: the curve is the one of SpecSecp.v and the hash is
    SHA-256.  Shared with SpecBIP327.v are the control flow (a value, [ValueError],
    [InvalidContributionError], or any other exception, called [AssertFailed]), the tuple
    [session], and the functions that handle byte strings only ([get_second_key],
    [bytes_xor], [int_from_bytes]). *)
From Coq Require Import String.
From Verif Require Import Bytes Sha256 SpecTags SpecBIP327 SpecSecp.
Open Scope Z_scope.

(** Python's [l[i:j]]. *)
Definition py_slice (i j : nat) (l : bytes) : bytes := firstn (j - i) (skipn i l).
(** Python's [z.to_bytes(k, 'big')], which raises [OverflowError]. *)
Definition py_to_bytes (z : Z) (k : nat) : py bytes :=
  py_assert ((0 <=? z) && (z <? 256 ^ Z.of_nat k)) (Ret (be_enc k z)).
(** reference.py:34-35. *)
Definition py_is_infinite (P : py_point) : bool := match P with None => true | Some _ => false end.
(** reference.py:37-43. *)
Definition py_x (P : py_point) : py Z := match P with None => AssertFailed | Some (x, _) => Ret x end.
(** reference.py:41-43. *)
Definition py_y (P : py_point) : py Z := match P with None => AssertFailed | Some (_, y) => Ret y end.
(** reference.py:67-68. *)
Definition py_bytes_from_int (z : Z) : py bytes := py_to_bytes z 32.
(** reference.py:83-85. *)
Definition py_has_even_y (P : py_point) : py bool := let* y := py_y P in Ret (y mod 2 =? 0).
(** reference.py:135-136. *)
Definition py_xbytes (P : py_point) : py bytes := let* x := py_x P in py_bytes_from_int x.
(** reference.py:138-140. *)
Definition py_cbytes (P : py_point) : py bytes :=
  let* ev := py_has_even_y P in
  let* xb := py_xbytes P in
  Ret ((if ev then x02 else x03) :: xb).
(** reference.py:142-146. *)
Definition py_cbytes_ext (P : py_point) : py bytes :=
  if py_is_infinite P then py_to_bytes 0 33 else py_cbytes P.
(** reference.py:148-151. *)
Definition py_point_negate (P : py_point) : py_point :=
  match P with None => None | Some (x, y) => Some (x, py_p - y) end.
(** reference.py:153-166. *)
Definition py_cpoint (x : bytes) : py py_point :=
  if negb (length x =? 33)%nat then ValueError else
  match py_lift_x (py_slice 1 33 x) with
  | None => ValueError
  | Some P =>
      match hd x00 x with
      | x02 => Ret (Some P)
      | x03 => Ret (py_point_negate (Some P))
      | _ => ValueError
      end
  end.
(** reference.py:168-172. *)
Definition py_cpoint_ext (x : bytes) : py py_point :=
  if bytes_eqb x (repeat x00 33) then Ret None else py_cpoint x.
(** reference.py:175-181. *)
Definition py_individual_pk (seckey : bytes) : py bytes :=
  let d0 := int_from_bytes seckey in
  py_check ((1 <=? d0) && (d0 <=? py_n - 1)) (
  let P := py_point_mul py_G d0 in
  py_assert (negb (py_is_infinite P)) (py_cbytes P)).

(** reference.py:187-189. *)
Record py_keyagg : Type := PyKeyAgg { py_Q : py_point; py_gacc : Z; py_tacc : Z }.
(** reference.py:191-193. *)
Definition py_get_xonly_pk (ctx : py_keyagg) : py bytes := py_xbytes (py_Q ctx).
(** reference.py:212-213. *)
Definition py_hash_keys (pubkeys : list bytes) : bytes := py_tagged_hash "KeyAgg list" (concat pubkeys).
(** reference.py:226-230. *)
Definition py_coeff_internal (pubkeys : list bytes) (pk pk2 : bytes) : Z :=
  let L := py_hash_keys pubkeys in
  if bytes_eqb pk pk2 then 1
  else int_from_bytes (py_tagged_hash "KeyAgg coefficient" (L ++ pk)) mod py_n.
(** reference.py:222-224. *)
Definition py_coeff (pubkeys : list bytes) (pk : bytes) : Z :=
  py_coeff_internal pubkeys pk (get_second_key pubkeys).
(** reference.py:199-205: the loop of [key_agg] from index [i] on. *)
Fixpoint py_key_agg_loop (pubkeys : list bytes) (pk2 : bytes) (i : nat) (l : list bytes) (Q : py_point)
  : py py_point :=
  match l with
  | [] => Ret Q
  | pk :: l' =>
      let* P := py_blame (Some i) CPubkey (py_cpoint pk) in
      let a := py_coeff_internal pubkeys pk pk2 in
      py_key_agg_loop pubkeys pk2 (S i) l' (py_point_add Q (py_point_mul P a))
  end.
(** reference.py:195-210. *)
Definition py_key_agg (pubkeys : list bytes) : py py_keyagg :=
  let* Q := py_key_agg_loop pubkeys (get_second_key pubkeys) 0 pubkeys None in
  py_assert (negb (py_is_infinite Q)) (Ret (PyKeyAgg Q 1 0)).
(** reference.py:232-248. *)
Definition py_apply_tweak (ctx : py_keyagg) (tweak : bytes) (is_xonly : bool) : py py_keyagg :=
  py_check (length tweak =? 32)%nat (
  let* g := if is_xonly
            then let* ev := py_has_even_y (py_Q ctx) in Ret (if negb ev then py_n - 1 else 1)
            else Ret 1 in
  let t := int_from_bytes tweak in
  py_check (negb (py_n <=? t)) (
  let Q' := py_point_add (py_point_mul (py_Q ctx) g) (py_point_mul py_G t) in
  py_check (negb (py_is_infinite Q')) (
  Ret (PyKeyAgg Q' (g * py_gacc ctx mod py_n) ((t + g * py_tacc ctx) mod py_n))))).
(** reference.py:326-328. *)
Fixpoint py_apply_tweaks (ctx : py_keyagg) (l : list (bytes * bool)) : py py_keyagg :=
  match l with
  | [] => Ret ctx
  | (t, x) :: l' => let* ctx' := py_apply_tweak ctx t x in py_apply_tweaks ctx' l'
  end.
(** reference.py:322-329. *)
Definition py_key_agg_and_tweak (pubkeys tweaks : list bytes) (is_xonly : list bool) : py py_keyagg :=
  py_check (length tweaks =? length is_xonly)%nat (
  let* ctx := py_key_agg pubkeys in
  py_apply_tweaks ctx (combine tweaks is_xonly)).

(** reference.py:253-264. *)
Definition py_nonce_hash (rand pk aggpk : bytes) (i : Z) (msg_prefixed extra_in : bytes) : py Z :=
  let* len_pk := py_to_bytes (zlen pk) 1 in
  let* len_aggpk := py_to_bytes (zlen aggpk) 1 in
  let* len_extra := py_to_bytes (zlen extra_in) 4 in
  let* i_byte := py_to_bytes i 1 in
  let buf := rand ++ len_pk ++ pk ++ len_aggpk ++ aggpk ++ msg_prefixed ++ len_extra ++ extra_in ++ i_byte in
  Ret (int_from_bytes (py_tagged_hash "MuSig/nonce" buf)).
(** reference.py:266-292. *)
Definition py_nonce_gen_internal (rand_ : bytes) (sk : option bytes) (pk : bytes)
    (aggpk msg extra_in : option bytes) : py (bytes * bytes) :=
  let rand := match sk with
              | Some sk => bytes_xor sk (py_tagged_hash "MuSig/aux" rand_)
              | None => rand_
              end in
  let aggpk := match aggpk with None => [] | Some a => a end in
  let* msg_prefixed := match msg with
                       | None => Ret [x00]
                       | Some m => let* len := py_to_bytes (zlen m) 8 in Ret ([x01] ++ len ++ m)
                       end in
  let extra_in := match extra_in with None => [] | Some e => e end in
  let* h_1 := py_nonce_hash rand pk aggpk 0 msg_prefixed extra_in in
  let* h_2 := py_nonce_hash rand pk aggpk 1 msg_prefixed extra_in in
  let k_1 := h_1 mod py_n in
  let k_2 := h_2 mod py_n in
  py_assert (negb (k_1 =? 0)) (
  py_assert (negb (k_2 =? 0)) (
  let R1 := py_point_mul py_G k_1 in
  let R2 := py_point_mul py_G k_2 in
  py_assert (negb (py_is_infinite R1)) (
  py_assert (negb (py_is_infinite R2)) (
  let* c1 := py_cbytes R1 in
  let* c2 := py_cbytes R2 in
  let* b1 := py_bytes_from_int k_1 in
  let* b2 := py_bytes_from_int k_2 in
  Ret (b1 ++ b2 ++ pk, c1 ++ c2))))).

(** reference.py:307-312: the inner loop of [nonce_agg] for component [j] in (0,1). *)
Fixpoint py_nonce_agg_loop (j : nat) (i : nat) (l : list bytes) (R : py_point) : py py_point :=
  match l with
  | [] => Ret R
  | pn :: l' =>
      let* Rij := py_blame (Some i) CPubnonce (py_cpoint (py_slice (j * 33) ((j + 1) * 33) pn)) in
      py_nonce_agg_loop j (S i) l' (py_point_add R Rij)
  end.
(** reference.py:302-314. *)
Definition py_nonce_agg (pubnonces : list bytes) : py bytes :=
  let* R1 := py_nonce_agg_loop 0 0 pubnonces None in
  let* c1 := py_cbytes_ext R1 in
  let* R2 := py_nonce_agg_loop 1 0 pubnonces None in
  let* c2 := py_cbytes_ext R2 in
  Ret (c1 ++ c2).

(** reference.py:331-345: (Q, gacc, tacc, b, R, e). *)
Record py_values : Type := PyValues {
  pv_Q : py_point; pv_gacc : Z; pv_tacc : Z; pv_b : Z; pv_R : py_point; pv_e : Z
}.
(** reference.py:331-345. *)
Definition py_get_session_values (sc : session) : py py_values :=
  let* ctx := py_key_agg_and_tweak (s_pubkeys sc) (s_tweaks sc) (s_is_xonly sc) in
  let Q := py_Q ctx in
  let* xQ := py_xbytes Q in
  let b := int_from_bytes (py_tagged_hash "MuSig/noncecoef" (s_aggnonce sc ++ xQ ++ s_msg sc)) mod py_n in
  let* R1 := py_blame None CAggnonce (py_cpoint_ext (py_slice 0 33 (s_aggnonce sc))) in
  let* R2 := py_blame None CAggnonce (py_cpoint_ext (py_slice 33 66 (s_aggnonce sc))) in
  let R' := py_point_add R1 (py_point_mul R2 b) in
  let R := if negb (py_is_infinite R') then R' else py_G in
  let* xR := py_xbytes R in
  let* xQ := py_xbytes Q in
  let e := int_from_bytes (py_tagged_hash "BIP0340/challenge" (xR ++ xQ ++ s_msg sc)) mod py_n in
  Ret (PyValues Q (py_gacc ctx) (py_tacc ctx) b R e).
(** reference.py:347-352. *)
Definition py_get_session_key_agg_coeff (sc : session) (P : py_point) : py Z :=
  let* pk := py_cbytes P in
  py_check (existsb (bytes_eqb pk) (s_pubkeys sc)) (Ret (py_coeff (s_pubkeys sc) pk)).
(** Python's [==] on points. *)
Definition py_point_eq (P Q : py_point) : bool :=
  match P, Q with
  | None, None => true
  | Some (x1, y1), Some (x2, y2) => (x1 =? x2) && (y1 =? y2)
  | _, _ => false
  end.
(** reference.py:435-450. *)
Definition py_partial_sig_verify_internal (psig pubnonce pk : bytes) (sc : session) : py bool :=
  let* v := py_get_session_values sc in
  let s := int_from_bytes psig in
  if py_n <=? s then Ret false else
  let* R1 := py_cpoint (py_slice 0 33 pubnonce) in
  let* R2 := py_cpoint (py_slice 33 66 pubnonce) in
  let Re_ := py_point_add R1 (py_point_mul R2 (pv_b v)) in
  let* ev := py_has_even_y (pv_R v) in
  let Re := if ev then Re_ else py_point_negate Re_ in
  let* P := py_cpoint pk in
  if py_is_infinite P then Ret false else
  let* a := py_get_session_key_agg_coeff sc P in
  let* evQ := py_has_even_y (pv_Q v) in
  let g := if evQ then 1 else py_n - 1 in
  let g' := g * pv_gacc v mod py_n in
  Ret (py_point_eq (py_point_mul py_G s) (py_point_add Re (py_point_mul P (pv_e v * a * g' mod py_n)))).
(** reference.py:354-387 (the secret nonce is not overwritten here). *)
Definition py_sign (secnonce sk : bytes) (sc : session) : py bytes :=
  let* v := py_get_session_values sc in
  let k_1_ := int_from_bytes (py_slice 0 32 secnonce) in
  let k_2_ := int_from_bytes (py_slice 32 64 secnonce) in
  py_check ((0 <? k_1_) && (k_1_ <? py_n)) (
  py_check ((0 <? k_2_) && (k_2_ <? py_n)) (
  let* ev := py_has_even_y (pv_R v) in
  let k_1 := if ev then k_1_ else py_n - k_1_ in
  let k_2 := if ev then k_2_ else py_n - k_2_ in
  let d_ := int_from_bytes sk in
  py_check ((0 <? d_) && (d_ <? py_n)) (
  let P := py_point_mul py_G d_ in
  py_assert (negb (py_is_infinite P)) (
  let* pk := py_cbytes P in
  py_check (bytes_eqb pk (py_slice 64 97 secnonce)) (
  let* a := py_get_session_key_agg_coeff sc P in
  let* evQ := py_has_even_y (pv_Q v) in
  let g := if evQ then 1 else py_n - 1 in
  let d := g * pv_gacc v * d_ mod py_n in
  let s := (k_1 + pv_b v * k_2 + pv_e v * a * d) mod py_n in
  let* psig := py_bytes_from_int s in
  let R1 := py_point_mul py_G k_1_ in
  let R2 := py_point_mul py_G k_2_ in
  py_assert (negb (py_is_infinite R1)) (
  py_assert (negb (py_is_infinite R2)) (
  let* c1 := py_cbytes R1 in
  let* c2 := py_cbytes R2 in
  let* ok := py_partial_sig_verify_internal psig (c1 ++ c2) pk sc in
  py_assert ok (Ret psig)))))))).
(** reference.py:426-433. *)
Definition py_partial_sig_verify (psig : bytes) (pubnonces pubkeys tweaks : list bytes)
    (is_xonly : list bool) (msg : bytes) (i : nat) : py bool :=
  py_check (length pubnonces =? length pubkeys)%nat (
  py_check (length tweaks =? length is_xonly)%nat (
  let* aggnonce := py_nonce_agg pubnonces in
  let sc := SessionContext aggnonce pubkeys tweaks is_xonly msg in
  match nth_error pubnonces i, nth_error pubkeys i with
  | Some pn, Some pk => py_partial_sig_verify_internal psig pn pk sc
  | _, _ => AssertFailed (* IndexError *)
  end)).
(** reference.py:456-460: the loop of [partial_sig_agg]. *)
Fixpoint py_psig_sum (i : nat) (l : list bytes) (s : Z) : py Z :=
  match l with
  | [] => Ret s
  | ps :: l' =>
      let s_i := int_from_bytes ps in
      if py_n <=? s_i then InvalidContribution (Some i) CPsig
      else py_psig_sum (S i) l' ((s + s_i) mod py_n)
  end.
(** reference.py:452-463. *)
Definition py_partial_sig_agg (psigs : list bytes) (sc : session) : py bytes :=
  let* v := py_get_session_values sc in
  let* s := py_psig_sum 0 psigs 0 in
  let* ev := py_has_even_y (pv_Q v) in
  let g := if ev then 1 else py_n - 1 in
  let s := (s + pv_e v * g * pv_tacc v) mod py_n in
  let* xR := py_xbytes (pv_R v) in
  let* sb := py_bytes_from_int s in
  Ret (xR ++ sb).
