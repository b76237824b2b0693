(** The tags of the tagged hashes, as strings, and the assumption that the digest
    constants of the code are their hashes.  The executable SHA-256 satisfies it
    (Toy.v). *)
From Coq Require Import String.
From Verif Require Import Bytes Prims TaggedHashes.

(** A tag as bytes. *)
Definition ascii_bytes (s : string) : bytes := list_byte_of_string s.

(** The constants of /repo/src/tagged_hashes.rs are the hashes of the tags. *)
Class tags_ok (Pr : prims) : Prop := {
  tag_keyagg_list : sha256 (ascii_bytes "KeyAgg list") = KEYAGG_LIST_TAG_DIGEST;
  tag_keyagg_coeff : sha256 (ascii_bytes "KeyAgg coefficient") = KEYAGG_COEFF_TAG_DIGEST;
  tag_musig_aux : sha256 (ascii_bytes "MuSig/aux") = MUSIG_AUX_TAG_DIGEST;
  tag_musig_nonce : sha256 (ascii_bytes "MuSig/nonce") = MUSIG_NONCE_TAG_DIGEST;
  tag_musig_noncecoef : sha256 (ascii_bytes "MuSig/noncecoef") = MUSIG_NONCECOEF_TAG_DIGEST;
  tag_bip340_aux : sha256 (ascii_bytes "BIP0340/aux") = BIP0340_AUX_TAG_DIGEST;
  tag_bip340_nonce : sha256 (ascii_bytes "BIP0340/nonce") = BIP0340_NONCE_TAG_DIGEST;
  tag_bip340_challenge : sha256 (ascii_bytes "BIP0340/challenge") = BIP0340_CHALLENGE_TAG_DIGEST;
  tag_bip340_batch : sha256 (ascii_bytes "BIP0340/batch") = BIP0340_BATCH_TAG_DIGEST;
  tag_taptweak : sha256 (ascii_bytes "TapTweak") = TAPROOT_TWEAK_TAG_DIGEST
}.
