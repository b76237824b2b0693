(** Executable SHA-256 (FIPS 180-4), used to instantiate the abstract hash. *)
From Verif Require Import Bytes.
Open Scope N_scope.

(** Words of 32 bits, FIPS 180-4 section 3.2 (the crate uses [sha2::Sha256], /repo/src/tagged_hashes.rs:12). *)
Definition mask32 : N := 4294967295.
(** Addition modulo 2^32, section 3.2. *)
Definition add32 (a b : N) : N := N.land (a + b) mask32.
(** ROTR, section 3.2. *)
Definition rotr (k : N) (x : N) : N :=
  N.lor (N.shiftr x k) (N.land (N.shiftl x (32 - k)) mask32).

(** FIPS 180-4, section 4.1.2. *)
Definition Ch (x y z : N) : N := N.lxor (N.land x y) (N.land (N.lxor x mask32) z).
(** Section 4.1.2, (4.3). *)
Definition Maj (x y z : N) : N := N.lxor (N.lxor (N.land x y) (N.land x z)) (N.land y z).
(** Section 4.1.2, (4.4). *)
Definition Sig0 (x : N) : N := N.lxor (N.lxor (rotr 2 x) (rotr 13 x)) (rotr 22 x).
(** Section 4.1.2, (4.5). *)
Definition Sig1 (x : N) : N := N.lxor (N.lxor (rotr 6 x) (rotr 11 x)) (rotr 25 x).
(** Section 4.1.2, (4.6). *)
Definition sig0 (x : N) : N := N.lxor (N.lxor (rotr 7 x) (rotr 18 x)) (N.shiftr x 3).
(** Section 4.1.2, (4.7). *)
Definition sig1 (x : N) : N := N.lxor (N.lxor (rotr 17 x) (rotr 19 x)) (N.shiftr x 10).

(** Section 4.2.2. *)
Definition K256 : list N :=
  [ 1116352408; 1899447441; 3049323471; 3921009573; 961987163; 1508970993;
    2453635748; 2870763221; 3624381080; 310598401; 607225278; 1426881987;
    1925078388; 2162078206; 2614888103; 3248222580; 3835390401; 4022224774;
    264347078; 604807628; 770255983; 1249150122; 1555081692; 1996064986;
    2554220882; 2821834349; 2952996808; 3210313671; 3336571891; 3584528711;
    113926993; 338241895; 666307205; 773529912; 1294757372; 1396182291;
    1695183700; 1986661051; 2177026350; 2456956037; 2730485921; 2820302411;
    3259730800; 3345764771; 3516065817; 3600352804; 4094571909; 275423344;
    430227734; 506948616; 659060556; 883997877; 958139571; 1322822218;
    1537002063; 1747873779; 1955562222; 2024104815; 2227730452; 2361852424;
    2428436474; 2756734187; 3204031479; 3329325298 ].

(** Section 5.3.3. *)
Definition H256 : list N :=
  [ 1779033703; 3144134277; 1013904242; 2773480762; 1359893119; 2600822924;
    528734635; 1541459225 ].

(** Message schedule (section 6.2.2, step 1), kept reversed: the last sixteen
    words first. *)
Fixpoint schedule (n : nat) (w : list N) : list N :=
  match n with
  | O => w
  | S n' =>
      let x := add32 (add32 (sig1 (nth 1 w 0)) (nth 6 w 0))
                     (add32 (sig0 (nth 14 w 0)) (nth 15 w 0)) in
      schedule n' (x :: w)
  end.

(** Step 3: one round. *)
Definition round (st : list N) (kw : N * N) : list N :=
  match st with
  | [a; b; c; d; e; f; g; h] =>
      let t1 := add32 (add32 h (Sig1 e)) (add32 (Ch e f g) (add32 (fst kw) (snd kw))) in
      let t2 := add32 (Sig0 a) (Maj a b c) in
      [add32 t1 t2; a; b; c; add32 d t1; e; f; g]
  | _ => st
  end.

(** Big-endian integers, section 3.1. *)
Definition word (b : bytes) : N := fold_left (fun a x => 256 * a + Byte.to_N x) b 0.

(** The first [n] words of four bytes, section 5.2.1. *)
Fixpoint words (n : nat) (b : bytes) : list N :=
  match n with
  | O => []
  | S n' => word (firstn 4 b) :: words n' (skipn 4 b)
  end.

(** One 64-byte block. *)
Definition compress (h : list N) (block : bytes) : list N :=
  let w := rev (schedule 48 (rev (words 16 block))) in
  map (fun ab => add32 (fst ab) (snd ab)) (combine h (fold_left round (combine K256 w) h)).

(** All blocks in turn, section 6.2.2. *)
Fixpoint blocks (n : nat) (h : list N) (b : bytes) : list N :=
  match n with
  | O => h
  | S n' => blocks n' (compress h (firstn 64 b)) (skipn 64 b)
  end.

(** Section 5.1.1. *)
Definition pad (m : bytes) : bytes :=
  m ++ [x80] ++ zeros (63 - ((length m + 8) mod 64)) ++ be_enc 8 (8 * zlen m).

(** The final state is eight words, so the result is always its first 32 bytes; the
    zeros only make the length evident. *)
Definition sha256_fips (m : bytes) : bytes :=
  let p := pad m in
  firstn 32 (flat_map (fun w => be_enc 4 (Z.of_N w)) (blocks (length p / 64) H256 p) ++ zeros 32).

Lemma sha256_fips_len m : length (sha256_fips m) = 32%nat.
Proof.
  unfold sha256_fips. rewrite firstn_length_le; [reflexivity|].
  rewrite app_length. unfold zeros. rewrite repeat_length. lia.
Qed.
