(** What the last of the signers to send its nonce decides: C109. *)
From Coq Require Import String List.
From Verif Require Import Bytes BytesFacts Prims PrimsFacts TaggedHashes Errors SpecTags SpecBIP327
  KeyAgg Nonces Toy ToyData ToyFork.
Import ListNotations.
Open Scope list_scope.
Open Scope Z_scope.
From Verif Require Import ProofsLastNonce.

(** C109.  Who sends a nonce after seeing those of all others decides what the aggregated nonce is: every pair of points, infinite ones too, that differs in both from the sum of the others is reached by exactly one nonce, at whatever position in the list; no other pair is reached. *)
Theorem C109_last_chooses {Pr : prims} {Laws : prims_ok Pr} (others : list (pub_nonce Pr)) (an : agg_nonce Pr) :
  (aR1 an <> aR1 (agg_sum others) -> aR2 an <> aR2 (agg_sum others) ->
     exists pn : pub_nonce Pr, (forall before after, others = before ++ after -> agg_sum (before ++ pn :: after) = an) /\
       (forall pn', agg_sum (others ++ [pn']) = an -> pn' = pn)) /\
  (aR1 an = aR1 (agg_sum others) \/ aR2 an = aR2 (agg_sum others) -> forall pn, agg_sum (others ++ [pn]) <> an).
Proof. exact (@C109_last_chooses_proof Pr Laws others an). Qed.
Print Assumptions C109_last_chooses.

(** The others' nonces are those of two toy signers; the nonce found for the pair 7*G, 9*G. *)
Example C109_case : let others := [@PubNonce Toy (tpt 2) (tpt 3); @PubNonce Toy (tpt 4) (tpt 8)] in
  negb (pt_eqb (pval (tpt 7)) (aR1 (agg_sum others))) && negb (pt_eqb (pval (tpt 9)) (aR2 (agg_sum others))) &&
  pt_eqb (aR1 (agg_sum (others ++ [@PubNonce Toy (tpt 1) (tpt 29)]))) (pval (tpt 7)) && pt_eqb (aR2 (agg_sum (others ++ [@PubNonce Toy (tpt 1) (tpt 29)]))) (pval (tpt 9)) = true.
Proof. vm_compute. reflexivity. Qed.

(** C109, the nonce of the signature.  If the second points of the others do not cancel, the last one can also choose, before message and keys are known and whatever the hash function is, any point R but the sum of the first points as the nonce of the signature: with the one nonce below, R is the final nonce of every group and message.
    The coefficient, which makes the final nonce depend on all of the session, is of no effect there. *)
Theorem C109_last_fixes_nonce {Pr : prims} {Laws : prims_ok Pr} (others : list (pub_nonce Pr)) (R : point Pr)
  (H1 : pval R <> aR1 (agg_sum others)) (H2 : aR2 (agg_sum others) <> pt_O) :
  exists pn : pub_nonce Pr, forall (Q : point Pr) (msg : bytes),
    let an := agg_sum (others ++ [pn]) in final_nonce an (nonce_coefficient an Q msg) = R.
Proof. exact (@C109_last_fixes_nonce_proof Pr Laws others R H1 H2). Qed.
Print Assumptions C109_last_fixes_nonce.

(** The same others: 1*G and 20*G bring the nonce to 7*G for two messages and keys. *)
Example C109_fixed_case : let an := agg_sum [@PubNonce Toy (tpt 2) (tpt 3); @PubNonce Toy (tpt 4) (tpt 8); @PubNonce Toy (tpt 1) (tpt 20)] in
  pt_eqb (final_nonce an (nonce_coefficient an (tpt 5) [x01])) (pval (tpt 7)) && pt_eqb (final_nonce an (nonce_coefficient an (tpt 6) [x02])) (pval (tpt 7)) = true.
Proof. vm_compute. reflexivity. Qed.
