(** src/tagged_hashes.rs: tagged hash engines.

    The ten digest constants are copied byte for byte from the source.  That
    they are the SHA-256 digests of the tags is proved in Toy.v for the
    executable SHA-256; theorems that compare with the reference assume it of the
    abstract hash ([tags_ok], SpecTags.v). *)
From Verif Require Import Bytes Prims.

Section Tagged.
Context {Pr : prims}.

(** src/tagged_hashes.rs:41-43 [with_tag_hash_prefix] followed by
    [chain_update(msg)] and [finalize]: the hash of two copies of the tag digest
    and the message. *)
Definition tagged (tag_digest msg : bytes) : bytes :=
  sha256 (tag_digest ++ tag_digest ++ msg).

End Tagged.

(** src/tagged_hashes.rs:45-49 [KEYAGG_LIST_TAG_DIGEST]: documented as sha256("KeyAgg list");
    used by [KEYAGG_LIST_TAG_HASHER] (lines 110-111). *)
Definition KEYAGG_LIST_TAG_DIGEST : bytes :=
  [ x48; x1c; x97; x1c; x3c; x0b; x46; xd7; xf0; xb2; x75; xae; x59; x8d; x4e; x2c;
    x7e; xd7; x31; x9c; x59; x4a; x5c; x6e; xc7; x9e; xa0; xd4; x99; x02; x94; xf0 ].

(** src/tagged_hashes.rs:51-55 [KEYAGG_COEFF_TAG_DIGEST]: documented as sha256("KeyAgg coefficient");
    used by [KEYAGG_COEFF_TAG_HASHER] (lines 118-119). *)
Definition KEYAGG_COEFF_TAG_DIGEST : bytes :=
  [ xbf; xc9; x04; x03; x4d; x1c; x88; xe8; xc8; x0e; x22; xe5; x3d; x24; x56; x6d;
    x64; x82; x4e; xd6; x42; x72; x81; xc0; x91; x00; xf9; x4d; xcd; x52; xc9; x81 ].

(** src/tagged_hashes.rs:57-61 [MUSIG_AUX_TAG_DIGEST]: documented as sha256("MuSig/aux");
    used by [MUSIG_AUX_TAG_HASHER] (lines 126-127). *)
Definition MUSIG_AUX_TAG_DIGEST : bytes :=
  [ x40; x8f; x8c; x1f; x29; x24; x21; xb5; x56; x9e; xbc; x6c; xb5; xf2; xe2; x0c;
    xf1; xe3; x84; x1b; x47; x43; x9f; xcc; x58; x7d; x20; xe3; xc1; x7f; x08; x37 ].

(** src/tagged_hashes.rs:63-67 [MUSIG_NONCE_TAG_DIGEST]: documented as sha256("MuSig/nonce");
    used by [MUSIG_NONCE_TAG_HASHER] (lines 134-135). *)
Definition MUSIG_NONCE_TAG_DIGEST : bytes :=
  [ xf8; xc1; x0c; xbc; x61; x4e; xd1; xa0; x84; xb4; x37; x05; x2b; x5d; x2c; x4b;
    x50; x1a; x9d; xe7; xaa; xfb; xe3; x48; xac; xe8; x02; x6c; xa7; xfc; xb1; x7b ].

(** src/tagged_hashes.rs:69-73 [MUSIG_NONCECOEF_TAG_DIGEST]: documented as sha256("MuSig/noncecoef");
    used by [MUSIG_NONCECOEF_TAG_HASHER] (lines 142-143). *)
Definition MUSIG_NONCECOEF_TAG_DIGEST : bytes :=
  [ x5a; x6d; x45; xf6; xda; x29; xe6; x51; xcb; x1b; xa2; xb8; xac; x2c; xdd; x4e;
    xbc; x15; xc2; xfb; xb2; x89; xf0; xcc; x82; x1b; xbf; x0a; x34; x09; x5f; x32 ].

(** src/tagged_hashes.rs:75-79 [BIP0340_AUX_TAG_DIGEST]: documented as sha256("BIP0340/aux");
    used by [BIP0340_AUX_TAG_HASHER] (lines 150-151). *)
Definition BIP0340_AUX_TAG_DIGEST : bytes :=
  [ xf1; xef; x4e; x5e; xc0; x63; xca; xda; x6d; x94; xca; xfa; x9d; x98; x7e; xa0;
    x69; x26; x58; x39; xec; xc1; x1f; x97; x2d; x77; xa5; x2e; xd8; xc1; xcc; x90 ].

(** src/tagged_hashes.rs:81-85 [BIP0340_NONCE_TAG_DIGEST]: documented as sha256("BIP0340/nonce");
    used by [BIP0340_NONCE_TAG_HASHER] (lines 158-159). *)
Definition BIP0340_NONCE_TAG_DIGEST : bytes :=
  [ x07; x49; x77; x34; xa7; x9b; xcb; x35; x5b; x9b; x8c; x7d; x03; x4f; x12; x1c;
    xf4; x34; xd7; x3e; xf7; x2d; xda; x19; x87; x00; x61; xfb; x52; xbf; xeb; x2f ].

(** src/tagged_hashes.rs:87-91 [BIP0340_CHALLENGE_TAG_DIGEST]: documented as sha256("BIP0340/challenge");
    used by [BIP0340_CHALLENGE_TAG_HASHER] (lines 166-167). *)
Definition BIP0340_CHALLENGE_TAG_DIGEST : bytes :=
  [ x7b; xb5; x2d; x7a; x9f; xef; x58; x32; x3e; xb1; xbf; x7a; x40; x7d; xb3; x82;
    xd2; xf3; xf2; xd8; x1b; xb1; x22; x4f; x49; xfe; x51; x8f; x6d; x48; xd3; x7c ].

(** src/tagged_hashes.rs:93-97 [BIP0340_BATCH_TAG_DIGEST]: documented as sha256("BIP0340/batch");
    used by [BIP0340_BATCH_TAG_HASHER] (lines 174-175). *)
Definition BIP0340_BATCH_TAG_DIGEST : bytes :=
  [ x77; x06; x39; x59; x84; x1f; xfa; x7b; x06; x15; x4e; xe0; x47; x50; x19; x40;
    x36; x48; x7a; xb8; x91; x96; xd0; x6e; xc7; x3e; x75; x82; x90; x98; x41; xb5 ].

(** src/tagged_hashes.rs:99-103 [TAPROOT_TWEAK_TAG_DIGEST]: documented as sha256("TapTweak");
    used by [TAPROOT_TWEAK_TAG_HASHER] (lines 182-183). *)
Definition TAPROOT_TWEAK_TAG_DIGEST : bytes :=
  [ xe8; x0f; xe1; x63; x9c; x9c; xa0; x50; xe3; xaf; x1b; x39; xc1; x43; xc6; x3e;
    x42; x9c; xbc; xeb; x15; xd9; x40; xfb; xb5; xc5; xa1; xf4; xaf; x57; xc5; xe9 ].
