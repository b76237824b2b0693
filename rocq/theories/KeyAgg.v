(** src/key_agg.rs: key aggregation contexts. *)
From Verif Require Import Bytes Prims TaggedHashes Errors.
Open Scope Z_scope.

Section KeyAgg.
Context {Pr : prims}.

(** [==] on [Point]. (src/key_agg.rs:505, 521.) *)
Definition point_eqb (P Q : point Pr) : bool := pt_eqb P Q.

(** [HashMap<Point, usize>]: an association list with at most one entry per
    key.  [map_insert] is [HashMap::insert] (an existing value is replaced),
    [map_get] is [HashMap::get]. (src/key_agg.rs:126-131, 428.) *)
Fixpoint map_insert (m : list (point Pr * nat)) (k : point Pr) (v : nat) :=
  match m with
  | [] => [(k, v)]
  | (k', v') :: m' =>
      if point_eqb k k' then (k, v) :: m' else (k', v') :: map_insert m' k v
  end.
(** [HashMap::get], called at src/key_agg.rs:428. *)
Fixpoint map_get (m : list (point Pr * nat)) (k : point Pr) : option nat :=
  match m with
  | [] => None
  | (k', v') :: m' => if point_eqb k k' then Some v' else map_get m' k
  end.

(** src/key_agg.rs:22-42 [KeyAggContext]. *)
Record key_agg_ctx : Type := KeyAggContext {
  pubkey : point Pr;
  ordered_pubkeys : list (point Pr);
  pubkey_indexes : list (point Pr * nat);
  key_coefficients : list (mscalar Pr);
  effective_pubkeys : list pt;
  parity_acc : bool;
  tweak_acc : mscalar Pr
}.

(** src/key_agg.rs:492-498 [hash_pubkeys]. *)
Definition hash_pubkeys (pks : list (point Pr)) : bytes :=
  tagged KEYAGG_LIST_TAG_DIGEST (flat_map ser_point pks).

(** src/key_agg.rs:500-517 [compute_key_aggregation_coefficient]. *)
Definition compute_key_aggregation_coefficient
    (pk_list_hash : bytes) (pk : point Pr) (pk2 : option (point Pr)) : mscalar Pr :=
  if (match pk2 with Some q => point_eqb pk q | None => false end) then fone
  else reduce_from (tagged KEYAGG_COEFF_TAG_DIGEST (pk_list_hash ++ ser_point pk)).

(** src/key_agg.rs:110-112 [ordered_pubkeys[1..].iter().find(|pk| pk != first)]. *)
Definition second_pubkey (pks : list (point Pr)) : option (point Pr) :=
  match pks with
  | [] => None
  | p0 :: rest => find (fun pk => negb (point_eqb pk p0)) rest
  end.

(** src/key_agg.rs:126-132: the index map, filled in list order. *)
Definition build_indexes (pks : list (point Pr)) : list (point Pr * nat) :=
  fold_left (fun m (e : nat * point Pr) => map_insert m (snd e) (fst e))
            (combine (seq 0 (length pks)) pks) [].

(** src/key_agg.rs:93-143 [KeyAggContext::new]. *)
Definition key_agg_new (pks : list (point Pr)) : res key_agg_error key_agg_ctx :=
  match pks with
  | [] => Panic                                                     (* line 99 *)
  | _ =>
    if u32_max <? zlen pks then Panic                               (* lines 100-103 *)
    else
      let pk2 := second_pubkey pks in
      let list_hash := hash_pubkeys pks in
      let coeffs :=
        map (fun pk => compute_key_aggregation_coefficient list_hash pk pk2) pks in
      let effs :=
        map (fun pk =>
          pmul (compute_key_aggregation_coefficient list_hash pk pk2) (pval pk)) pks in
      match not_inf (psum effs) with
      | None => Err KeyAggError
      | Some agg =>
          Ok {| pubkey := agg;
                ordered_pubkeys := pks;
                pubkey_indexes := build_indexes pks;
                key_coefficients := coeffs;
                effective_pubkeys := effs;
                parity_acc := false;
                tweak_acc := fzero |}
      end
  end.

(** [KeyAggContext { pubkey, parity_acc, tweak_acc, ..self }]. (src/key_agg.rs:230-234, 259-264.) *)
Definition ctx_update (c : key_agg_ctx) (Q : point Pr) (par : bool) (t : mscalar Pr) :=
  {| pubkey := Q;
     ordered_pubkeys := ordered_pubkeys c;
     pubkey_indexes := pubkey_indexes c;
     key_coefficients := key_coefficients c;
     effective_pubkeys := effective_pubkeys c;
     parity_acc := par;
     tweak_acc := t |}.

(** src/key_agg.rs:221-235 [with_plain_tweak]. *)
Definition with_plain_tweak (c : key_agg_ctx) (t : scalar Pr) : res tweak_error key_agg_ctx :=
  match not_inf (pt_add (pubkey c) (gmul t)) with
  | None => Err TweakError
  | Some Q => Ok (ctx_update c Q (parity_acc c) (fadd (tweak_acc c) t))
  end.

(** src/key_agg.rs:238-265 [with_xonly_tweak]. *)
Definition with_xonly_tweak (c : key_agg_ctx) (t : scalar Pr) : res tweak_error key_agg_ctx :=
  if negb (pt_odd (pubkey c)) then with_plain_tweak c t
  else
    match not_inf (psub (gmul t) (pubkey c)) with
    | None => Err TweakError
    | Some Q => Ok (ctx_update c Q (negb (parity_acc c)) (fsub t (tweak_acc c)))
    end.

(** src/key_agg.rs:200-206 [with_tweak]. *)
Definition with_tweak (c : key_agg_ctx) (t : scalar Pr) (is_xonly : bool) :=
  if is_xonly then with_xonly_tweak c t else with_plain_tweak c t.

(** src/key_agg.rs:209-218 [with_tweaks]. *)
Fixpoint with_tweaks (c : key_agg_ctx) (ts : list (scalar Pr * bool))
  : res tweak_error key_agg_ctx :=
  match ts with
  | [] => Ok c
  | (t, x) :: ts' => bind (with_tweak c t x) (fun c' => with_tweaks c' ts')
  end.

(** src/key_agg.rs:267-278 [with_taproot_tweak_internal]. *)
Definition with_taproot_tweak_internal (c : key_agg_ctx) (merkle_root : bytes)
  : res tweak_error key_agg_ctx :=
  let h := tagged TAPROOT_TWEAK_TAG_DIGEST (pt_x (pubkey c) ++ merkle_root) in
  match parse_scalar h with
  | None => Err TweakError
  | Some t => with_xonly_tweak c t
  end.

(** src/key_agg.rs:303-305 [with_taproot_tweak] (the argument has 32 bytes). *)
Definition with_taproot_tweak (c : key_agg_ctx) (merkle_root : bytes) :=
  with_taproot_tweak_internal c merkle_root.

(** src/key_agg.rs:329-331 [with_unspendable_taproot_tweak]. *)
Definition with_unspendable_taproot_tweak (c : key_agg_ctx) :=
  with_taproot_tweak_internal c [].

(** src/key_agg.rs:367-369 [aggregated_pubkey]. *)
Definition aggregated_pubkey (c : key_agg_ctx) : point Pr := pubkey c.

(** src/key_agg.rs:407-410 [aggregated_pubkey_untweaked]; the [unwrap] is a
    possible panic. *)
Definition aggregated_pubkey_untweaked (c : key_agg_ctx) : res Empty_set (point Pr) :=
  unwrap (not_inf (pneg_if (parity_acc c) (psub (pubkey c) (gmul (tweak_acc c))))).

(** src/key_agg.rs:415-417 [tweak_sum]. *)
Definition tweak_sum (c : key_agg_ctx) : option (scalar Pr) := not_zero (tweak_acc c).

(** src/key_agg.rs:421-423 [pubkeys]. *)
Definition pubkeys (c : key_agg_ctx) : list (point Pr) := ordered_pubkeys c.

(** src/key_agg.rs:427-429 [pubkey_index]. *)
Definition pubkey_index (c : key_agg_ctx) (pk : point Pr) : option nat :=
  map_get (pubkey_indexes c) pk.

(** src/key_agg.rs:435-437 [get_pubkey]. *)
Definition get_pubkey (c : key_agg_ctx) (i : nat) : option (point Pr) :=
  nth_error (ordered_pubkeys c) i.

(** src/key_agg.rs:451-454 [key_coefficient]; the inner [Panic] is the
    out-of-range indexing of line 453. *)
Definition key_coefficient (c : key_agg_ctx) (pk : point Pr)
  : res Empty_set (option (mscalar Pr)) :=
  match pubkey_index c pk with
  | None => Ok None
  | Some i => bind (unwrap (nth_error (key_coefficients c) i)) (fun a => Ok (Some a))
  end.

(** src/key_agg.rs:462-465 [effective_pubkey]. *)
Definition effective_pubkey (c : key_agg_ctx) (pk : point Pr)
  : res Empty_set (option pt) :=
  match pubkey_index c pk with
  | None => Ok None
  | Some i => bind (unwrap (nth_error (effective_pubkeys c) i)) (fun a => Ok (Some a))
  end.

(** src/key_agg.rs:476-479: the loop of [aggregated_seckey]; [None] is the
    early return when there are more secret keys than coefficients. *)
Fixpoint seckey_loop (coeffs : list (mscalar Pr)) (sks : list (scalar Pr)) (acc : mscalar Pr) {struct sks}
  : option (mscalar Pr) :=
  match sks with
  | [] => Some acc
  | sk :: sks' =>
      match coeffs with
      | [] => None
      | a :: coeffs' => seckey_loop coeffs' sks' (fadd acc (fmul sk a))
      end
  end.

(** src/key_agg.rs:471-489 [aggregated_seckey]. *)
Definition aggregated_seckey (c : key_agg_ctx) (sks : list (scalar Pr))
  : res seckeys_error (scalar Pr) :=
  match seckey_loop (key_coefficients c) sks fzero with
  | None => Err InvalidSecretKeysError
  | Some acc =>
      match not_zero (fadd (fneg_if (parity_acc c) acc) (tweak_acc c)) with
      | None => Err InvalidSecretKeysError
      | Some x =>
          if negb (pt_eqb (gmul x) (pubkey c)) then Err InvalidSecretKeysError
          else Ok x
      end
  end.

(** [==] on [Vec<Point>], used at src/key_agg.rs:521. *)
Fixpoint points_eqb (l m : list (point Pr)) : bool :=
  match l, m with
  | [], [] => true
  | P :: l', Q :: m' => point_eqb P Q && points_eqb l' m'
  | _, _ => false
  end.

(** src/key_agg.rs:519-525 [PartialEq for KeyAggContext]. *)
Definition ctx_eqb (c d : key_agg_ctx) : bool :=
  points_eqb (ordered_pubkeys c) (ordered_pubkeys d)
  && Bool.eqb (parity_acc c) (parity_acc d)
  && feqb (tweak_acc c) (tweak_acc d).

(** *** Binary encoding *)

(** src/key_agg.rs:557-579 [to_bytes].  [(tweak_acc_bit << 1) | parity_acc_bit] is
    written as an addition; [n_pubkey as u32] truncates, as [be_enc 4] does. *)
Definition ctx_to_bytes (c : key_agg_ctx) : bytes :=
  let tweak_bit := negb (feqb (tweak_acc c) fzero) in
  let header := z2b ((if tweak_bit then 2 else 0) + (if parity_acc c then 1 else 0)) in
  [header]
    ++ (if tweak_bit then ser_scalar (tweak_acc c) else [])
    ++ be_enc 4 (zlen (ordered_pubkeys c))
    ++ flat_map ser_point (ordered_pubkeys c).

(** The compilation target: width of [usize] and whether overflow checks are on.
    (src/key_agg.rs:609.) *)
Record target : Type := Target { usize_bits : Z; overflow_checks : bool }.
(** A 64-bit target without overflow checks (src/key_agg.rs:609). *)
Definition target64 := Target 64 false.

(** [a * b] on [usize]. (src/key_agg.rs:609.) *)
Definition usize_mul (tg : target) (a b : Z) : res decode_error Z :=
  if a * b <? 2 ^ usize_bits tg then Ok (a * b)
  else if overflow_checks tg then Panic
  else Ok ((a * b) mod 2 ^ usize_bits tg).

(** [&bytes[i..j]]: panics when [j] is out of range. (src/key_agg.rs:597, 604, 613.) *)
Definition slice {E} (b : bytes) (i j : nat) : res E bytes :=
  if (i <=? j)%nat && (j <=? length b)%nat then Ok (firstn (j - i) (skipn i b)) else Panic.

(** [chunks_exact(33)]: consecutive chunks, a shorter remainder is dropped.
    The fuel is the length of the input, which is always enough. (src/key_agg.rs:614.) *)
Fixpoint chunks_exact_fuel (fuel k : nat) (b : bytes) : list bytes :=
  match fuel with
  | O => []
  | S fuel' =>
      if (length b <? k)%nat then []
      else firstn k b :: chunks_exact_fuel fuel' k (skipn k b)
  end.
(** [chunks_exact] with enough fuel (src/key_agg.rs:614). *)
Definition chunks_exact (k : nat) (b : bytes) : list bytes :=
  chunks_exact_fuel (length b) k b.

(** [map(Point::from_slice).collect::<Result<_, _>>()?]. (src/key_agg.rs:615-616.) *)
Fixpoint parse_points (l : list bytes) : res decode_error (list (point Pr)) :=
  match l with
  | [] => Ok []
  | b :: l' =>
      match parse_point b with
      | None => Err InvalidPoint
      | Some P => bind (parse_points l') (fun ps => Ok (P :: ps))
      end
  end.

(** src/key_agg.rs:584-629 [from_bytes]. *)
Definition ctx_from_bytes (tg : target) (b : bytes) : res decode_error key_agg_ctx :=
  if (length b <? 38)%nat then Err (BadLength (length b)) else
  match b with
  | [] => Panic
  | header :: _ =>
    let parity := Z.testbit (b2z header) 0 in
    bind (if Z.testbit (b2z header) 1 then
            bind (slice b 1 33) (fun tb =>
            match parse_scalar tb with
            | None => Err InvalidScalar
            | Some t => Ok (33%nat, Some t)
            end)
          else Ok (1%nat, None))
    (fun ct : nat * option (scalar Pr) => let (cursor, tweak) := ct in
    bind (slice b cursor (cursor + 4)) (fun nb =>
    let n_pubkey := be_dec nb in
    let cursor := (cursor + 4)%nat in
    bind (usize_mul tg n_pubkey 33) (fun expected =>
    if negb (zlen b - Z.of_nat cursor =? expected) then Err (BadLength (length b)) else
    bind (parse_points (chunks_exact 33 (skipn cursor b))) (fun pks =>
    bind (map_err decode_of_key_agg (key_agg_new pks)) (fun c =>
    let c := ctx_update c (if parity then neg_point (pubkey c) else pubkey c)
                        parity (tweak_acc c) in
    match tweak with
    | None => Ok c
    | Some t => map_err decode_of_tweak (with_plain_tweak c t)
    end)))))
  end.

End KeyAgg.
Arguments key_agg_ctx Pr : clear implicits.
