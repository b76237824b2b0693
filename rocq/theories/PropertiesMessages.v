(** C61: error messages. *)
From Coq Require Import String Ascii List.
From Verif Require Import Bytes Errors Messages.
Import ListNotations.
Open Scope list_scope.
Open Scope string_scope.
From Verif Require Import ProofsMessages.

(** C61.  The text of an error determines its type, its variant and every number in it. *)
Theorem C61_messages_identify_errors (e1 e2 : any_error) :
  show e1 = show e2 -> e1 = e2.
Proof. exact (@C61_messages_identify_errors_proof e1 e2). Qed.
Print Assumptions C61_messages_identify_errors.

Example C61_case : show (AContribution (RoundContributionError 12 (OutOfRange 3))) =
  "invalid signer index 12: exceeds max index for 3 signers" /\
  show (AFinalize (FE_SigningError SE_UnknownKey)) =
  "cannot finalize round: signing failed, failed to create signature: signing key is not a member of the group".
Proof. split; reflexivity. Qed.

(** The text of a [DecodeError] determines the reason among the reasons other than [Custom]
    and the two custom reasons the crate makes itself, as long as the texts of the other crates
    are distinct and do not look like one of the crate's own.  A custom reason can copy the
    text of any other one. *)
Theorem C61_decode_messages (x : foreign_texts) (Hhex : hex_text x InvalidEncoding <> hex_text x InvalidLength) (Hps : point_text x <> scalar_text x) (Hforeign : forall s, s = point_text x \/ s = scalar_text x -> prefix "hex decoding error: " s = false /\ prefix "unexpected length " s = false /\ Custom s <> decode_of_key_agg KeyAggError /\ Custom s <> decode_of_tweak TweakError) :
  let own := fun e => match e with Custom _ => e = decode_of_key_agg KeyAggError \/ e = decode_of_tweak TweakError | _ => True end in
  (forall e1 e2, own e1 -> own e2 -> show_decode x e1 = show_decode x e2 -> e1 = e2) /\
  (forall e, exists s, show_decode x (Custom s) = show_decode x e).
Proof. exact (@C61_decode_messages_proof x Hhex Hps Hforeign). Qed.
Print Assumptions C61_decode_messages.

(** Possible foreign texts. *)
Example C61_decode_case :
  let x := {| type_name := "musig2::PubNonce"; hex_text := fun h => match h with InvalidEncoding => "invalid Base16 encoding" | InvalidLength => "invalid Base16 length" end;
              point_text := "invalid point"; scalar_text := "invalid scalar" |} in
  show_decode x (BadLength 65) = "error decoding musig2::PubNonce: unexpected length 65" /\
  (forall s, s = point_text x \/ s = scalar_text x -> prefix "hex decoding error: " s = false /\ prefix "unexpected length " s = false /\
     Custom s <> decode_of_key_agg KeyAggError /\ Custom s <> decode_of_tweak TweakError) /\
  show_decode x (Custom "unexpected length 65") = show_decode x (BadLength 65).
Proof. split; [reflexivity|]. split; [|reflexivity]. intros s [-> | ->]; repeat split; discriminate. Qed.
