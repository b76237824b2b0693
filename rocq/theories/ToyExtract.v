(** Data for the examples of PropertiesExtraction: the toy curve in four runs, whose hash
    functions differ in the coefficient of the key 5 and in the challenges. *)
From Coq Require Import String.
From Verif Require Import Bytes BytesFacts Prims TaggedHashes Errors SpecTags SpecBIP327 KeyAgg Nonces Signature Signing
  Bip340 SpecExtract Toy ToyData.
Local Open Scope Z_scope.

(** [i] chooses the coefficients, [j] the challenges. *)
Definition run_hash (i j : bool) (b : bytes) : bytes :=
  let tag := firstn 32 b in
  if negb i && bytes_eqb tag KEYAGG_COEFF_TAG_DIGEST && bytes_eqb (skipn (length b - 33) b) (cbytes (tpt 5))
  then toy_hash (b ++ [x01])
  else if negb j && bytes_eqb tag BIP0340_CHALLENGE_TAG_DIGEST then toy_hash (b ++ [x02])
  else toy_hash b.

Lemma run_hash_len i j m : length (run_hash i j m) = 32%nat.
Proof. unfold run_hash. destruct (_ && _ && _)%bool; [|destruct (_ && _)%bool]; apply toy_hash_len. Qed.

Lemma run_hash_tags i j : tags_ok (with_hash Toy (run_hash i j)).
Proof. destruct i, j; constructor; vm_compute; reflexivity. Qed.

(** The same, but the coefficients of all keys are doubled when [i] holds. *)
Definition run_hash2 (i j : bool) (b : bytes) : bytes :=
  let tag := firstn 32 b in
  if bytes_eqb tag KEYAGG_COEFF_TAG_DIGEST && (60 <? length b)%nat
  then be_enc 32 ((if i then 2 else 1) * (be_dec (toy_hash b) mod 31))
  else if negb j && bytes_eqb tag BIP0340_CHALLENGE_TAG_DIGEST then toy_hash (b ++ [x02])
  else toy_hash b.

Lemma run_hash2_len i j m : length (run_hash2 i j m) = 32%nat.
Proof.
  unfold run_hash2. destruct (_ && _)%bool; [apply be_enc_length|].
  destruct (_ && _)%bool; apply toy_hash_len.
Qed.

Lemma run_hash2_tags i j : tags_ok (with_hash Toy (run_hash2 i j)).
Proof. destruct i, j; constructor; vm_compute; reflexivity. Qed.

(** What a run shows: the coefficients, the parity of the aggregated key, the signature, the
    challenge, and whether the signature is valid. *)
Record run := { run_coeffs : list Z; run_even : bool; run_sig : bytes; run_e : Z; run_ok : bool }.

(** The run of [i] and [j] on a message, with the nonce 4; the signature is found by trying. *)
Definition run_with (h : bool -> bool -> bytes -> bytes) (pks : list (point Toy)) (msg : bytes) (i j : bool) : option run :=
  let W := with_hash Toy (h i j) in
  let ks := map (rehash (h i j)) pks in
  match @key_agg_new W ks with
  | Ok c =>
      let Q := aggregated_pubkey c in
      let rx := xbytes (tpt 4) in
      let ok := fun s => is_ok (@verify_single_bytes W Q (rx ++ be_enc 32 s) msg) in
      match filter ok (map Z.of_nat (seq 0 31)) with
      | s :: _ =>
          Some {| run_coeffs := map (@coeff_in W ks) ks;
                  run_even := @has_even_y W Q;
                  run_sig := rx ++ be_enc 32 s;
                  run_e := int_from_bytes (@tagged_hash W "BIP0340/challenge" (rx ++ @xbytes W Q ++ msg)) mod 31;
                  run_ok := ok s |}
      | [] => None
      end
  | _ => None
  end.

(** The four runs, if all of them exist. *)
Definition runs_with (h : bool -> bool -> bytes -> bytes) (pks : list (point Toy)) (msg : bytes) : option (bool -> bool -> run) :=
  match run_with h pks msg true true, run_with h pks msg true false, run_with h pks msg false true, run_with h pks msg false false with
  | Some a, Some b, Some c, Some d => Some (fun i j : bool => if i then (if j then a else b) else (if j then c else d))
  | _, _, _, _ => None
  end.

(** Equality of lists of integers, decided. *)
Definition same_list (a b : list Z) : bool := if list_eq_dec Z.eq_dec a b then true else false.

(** The four runs are as in [C73_rewinding], for the key at position [k] with [copies] copies,
    the others being at the positions [others] with coefficients in the proportion [g], and the
    equation has the one solution [x]. *)
Definition runs_give (f : bool -> bool -> run) (x copies : Z) (k : nat) (others : list nat) (g : Z) : bool :=
  let D := fun i => run_e (f i true) - run_e (f i false) in
  let S := fun i => (if run_even (f i true) then 1 else -1)
    * (int_from_bytes (skipn 32 (run_sig (f i true))) - int_from_bytes (skipn 32 (run_sig (f i false)))) in
  let A := fun i k => nth k (run_coeffs (f i true)) 0 in
  let w := D true * D false * (copies * (A true k - g * A false k)) in
  let r := D false * S true - g * D true * S false in
  forallb (fun i => forallb (fun j => run_ok (f i j) && same_list (run_coeffs (f i j)) (run_coeffs (f i true))
      && bytes_eqb (firstn 32 (run_sig (f i j))) (firstn 32 (run_sig (f i true)))) [true; false]) [true; false]
  && forallb (fun l => A true l mod 31 =? g * A false l mod 31) others
  && negb (w mod 31 =? 0)
  && match filter (fun y => (w * y) mod 31 =? r mod 31) (map Z.of_nat (seq 0 31)) with [y] => y =? x | _ => false end.
