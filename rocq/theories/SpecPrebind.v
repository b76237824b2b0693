(** One adaptor signature for two messages or two keys.

    Specification only: nothing here models code of /repo; the verification is that of the model's
    [verify_single_adaptor]. *)
From Coq Require Import String List.
From Verif Require Import Bytes Prims SpecBIP327 Errors Signature Bip340 SpecExtract SpecFork SpecBind.
Import ListNotations.
Local Open Scope Z_scope.

Section Prebind.
Context {Pr : prims}.

(** An adaptor signature, seen with another hash function. *)
Definition readaptor (h : bytes -> bytes) (sg : adaptor_sig Pr) : adaptor_sig (with_hash Pr h) :=
  @AdaptorSignature (with_hash Pr h) (a_R sg) (a_s sg).
(** It verifies under the adaptor point [T]. *)
Definition pre_serves (h : bytes -> bytes) (sg : adaptor_sig Pr) (T : @pt Pr) (p : purpose Pr) : bool :=
  is_ok (@verify_single_adaptor (with_hash Pr h) (rehash h (fst p)) (readaptor h sg) (snd p) T).
(** The challenge: that of the adapted nonce. *)
Definition pre_question (sg : adaptor_sig Pr) (T : @pt Pr) (p : purpose Pr) : bytes :=
  challenge_input (xbytes (pt_add (a_R sg) T)) (xbytes (fst p)) (snd p).
(** An adaptor signature, one adaptor point, and two purposes. *)
Definition pre_claim : Type := ((adaptor_sig Pr * @pt Pr) * (purpose Pr * purpose Pr))%type.
(** The program ends with an adaptor signature that verifies for both, although they differ. *)
Definition two_pre_purposes (F : asker pre_claim) (w : list (bytes * bytes)) : bool :=
  let h := hash_in w in let '((sg, T), (p, p')) := outcome h F in
  negb (same_purpose p p') && pre_serves h sg T p && pre_serves h sg T p'.
(** It asks at most [q] questions, and both challenges are among the inputs. *)
Definition pre_within (inputs digests : list bytes) (q : nat) (F : asker pre_claim) : Prop :=
  asks_within inputs digests (fun r => let '((sg, T), (p, p')) := r in In (pre_question sg T p) inputs /\ In (pre_question sg T p') inputs) q F.
End Prebind.
Arguments pre_claim Pr : clear implicits.
