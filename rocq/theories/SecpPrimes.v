(** The field size and the group order of secp256k1 are prime: Pocklington
    certificates, checked by computation. *)
From Coq Require Import ZArith Znumtheory List Lia Bool.
From Verif Require Import Primality.
Import ListNotations.
Open Scope Z_scope.

(** Barrett reduction.  Whatever the quotient estimate, the result is congruent
    to [x] modulo [N]. *)
Definition barrett (N s1 mu s2 x : Z) : Z := x - Z.shiftr (Z.shiftr x s1 * mu) s2 * N.
Lemma barrett_mod N s1 mu s2 x : barrett N s1 mu s2 x mod N = x mod N.
Proof.
  unfold barrett. generalize (Z.shiftr (Z.shiftr x s1 * mu) s2). intro q.
  rewrite <- Z.add_opp_r, <- Z.mul_opp_l. destruct (Z.eq_dec N 0) as [->|H]; [now rewrite !Zmod_0_r, Z.mul_0_r, Z.add_0_r|].
  apply Z.mod_add, H.
Qed.

Lemma prime_7 : prime 7.
Proof. apply (prime_trial 7 2); [lia | lia | vm_compute; reflexivity]. Qed.
Lemma prime_29 : prime 29.
Proof. apply (prime_trial 29 5); [lia | lia | vm_compute; reflexivity]. Qed.
Lemma prime_53 : prime 53.
Proof. apply (prime_trial 53 7); [lia | lia | vm_compute; reflexivity]. Qed.
Lemma prime_97 : prime 97.
Proof. apply (prime_trial 97 9); [lia | lia | vm_compute; reflexivity]. Qed.
Lemma prime_293 : prime 293.
Proof. apply (prime_trial 293 17); [lia | lia | vm_compute; reflexivity]. Qed.
Lemma prime_2011 : prime 2011.
Proof. apply (prime_trial 2011 44); [lia | lia | vm_compute; reflexivity]. Qed.
Lemma prime_28181 : prime 28181.
Proof. apply (prime_trial 28181 167); [lia | lia | vm_compute; reflexivity]. Qed.
Lemma prime_85831 : prime 85831.
Proof. apply (prime_trial 85831 292); [lia | lia | vm_compute; reflexivity]. Qed.
Lemma prime_96557 : prime 96557.
Proof. apply (prime_trial 96557 310); [lia | lia | vm_compute; reflexivity]. Qed.
Lemma prime_305873 : prime 305873.
Proof. apply (prime_trial 305873 553); [lia | lia | vm_compute; reflexivity]. Qed.
Lemma prime_1206781 : prime 1206781.
Proof. apply (prime_trial 1206781 1098); [lia | lia | vm_compute; reflexivity]. Qed.
Lemma prime_107590001 : prime 107590001.
Proof.
  apply (pocklington 107590001 (barrett 107590001 23 42863518687 39) (barrett_mod _ _ _ _) [(29, 2); (53, 2); (7, 2)]).
  - vm_compute. reflexivity.
  - cbn [map fst]. repeat constructor; cbn [In]; lia.
  - cbn [map fst In]. intros q Hq. repeat destruct Hq as [Hq|Hq]; [rewrite <- Hq; exact prime_29 | rewrite <- Hq; exact prime_53 | rewrite <- Hq; exact prime_7 | contradiction].
Qed.
Lemma prime_7240687 : prime 7240687.
Proof.
  apply (pocklington 7240687 (barrett 7240687 19 2487940510 35) (barrett_mod _ _ _ _) [(1206781, 2)]).
  - vm_compute. reflexivity.
  - cbn [map fst]. repeat constructor; cbn [In]; lia.
  - cbn [map fst In]. intros q Hq. repeat destruct Hq as [Hq|Hq]; [rewrite <- Hq; exact prime_1206781 | contradiction].
Qed.
Lemma prime_545358713 : prime 545358713.
Proof.
  apply (pocklington 545358713 (barrett 545358713 26 541199577716 42) (barrett_mod _ _ _ _) [(28181, 2)]).
  - vm_compute. reflexivity.
  - cbn [map fst]. repeat constructor; cbn [In]; lia.
  - cbn [map fst In]. intros q Hq. repeat destruct Hq as [Hq|Hq]; [rewrite <- Hq; exact prime_28181 | contradiction].
Qed.
Lemma prime_4681609 : prime 4681609.
Proof.
  apply (pocklington 4681609 (barrett 4681609 19 3847907526 35) (barrett_mod _ _ _ _) [(2011, 2); (97, 2)]).
  - vm_compute. reflexivity.
  - cbn [map fst]. repeat constructor; cbn [In]; lia.
  - cbn [map fst In]. intros q Hq. repeat destruct Hq as [Hq|Hq]; [rewrite <- Hq; exact prime_2011 | rewrite <- Hq; exact prime_97 | contradiction].
Qed.
Lemma prime_107361793816595537 : prime 107361793816595537.
Proof.
  apply (pocklington 107361793816595537 (barrett 107361793816595537 53 49523315456357413037 69) (barrett_mod _ _ _ _) [(4681609, 2); (85831, 2)]).
  - vm_compute. reflexivity.
  - cbn [map fst]. repeat constructor; cbn [In]; lia.
  - cbn [map fst In]. intros q Hq. repeat destruct Hq as [Hq|Hq]; [rewrite <- Hq; exact prime_4681609 | rewrite <- Hq; exact prime_85831 | contradiction].
Qed.
Lemma prime_29047611873442575647497758179 : prime 29047611873442575647497758179.
Proof.
  apply (pocklington 29047611873442575647497758179 (barrett 29047611873442575647497758179 91 13830207895060807695449386897627 107) (barrett_mod _ _ _ _) [(545358713, 2); (305873, 2); (293, 2)]).
  - vm_compute. reflexivity.
  - cbn [map fst]. repeat constructor; cbn [In]; lia.
  - cbn [map fst In]. intros q Hq. repeat destruct Hq as [Hq|Hq]; [rewrite <- Hq; exact prime_545358713 | rewrite <- Hq; exact prime_305873 | rewrite <- Hq; exact prime_293 | contradiction].
Qed.
Lemma prime_341948486974166000522343609283189 : prime 341948486974166000522343609283189.
Proof.
  apply (pocklington 341948486974166000522343609283189 (barrett 341948486974166000522343609283189 105 315368515365736328699988557321192252 121) (barrett_mod _ _ _ _) [(29047611873442575647497758179, 2)]).
  - vm_compute. reflexivity.
  - cbn [map fst]. repeat constructor; cbn [In]; lia.
  - cbn [map fst In]. intros q Hq. repeat destruct Hq as [Hq|Hq]; [rewrite <- Hq; exact prime_29047611873442575647497758179 | contradiction].
Qed.
Lemma prime_secp_n : prime 115792089237316195423570985008687907852837564279074904382605163141518161494337.
Proof.
  apply (pocklington 115792089237316195423570985008687907852837564279074904382605163141518161494337 (barrett 115792089237316195423570985008687907852837564279074904382605163141518161494337 252 29642774844752946028434172162224104410547815693364793266255361247822873033097373 268) (barrett_mod _ _ _ _) [(341948486974166000522343609283189, 2); (107361793816595537, 2)]).
  - vm_compute. reflexivity.
  - cbn [map fst]. repeat constructor; cbn [In]; lia.
  - cbn [map fst In]. intros q Hq. repeat destruct Hq as [Hq|Hq]; [rewrite <- Hq; exact prime_341948486974166000522343609283189 | rewrite <- Hq; exact prime_107361793816595537 | contradiction].
Qed.
Lemma prime_255515944373312847190720520512484175977 : prime 255515944373312847190720520512484175977.
Proof.
  apply (pocklington 255515944373312847190720520512484175977 (barrett 255515944373312847190720520512484175977 124 116011448590638171089406205920954080977920 140) (barrett_mod _ _ _ _) [(7240687, 2); (107590001, 2); (96557, 2)]).
  - vm_compute. reflexivity.
  - cbn [map fst]. repeat constructor; cbn [In]; lia.
  - cbn [map fst In]. intros q Hq. repeat destruct Hq as [Hq|Hq]; [rewrite <- Hq; exact prime_7240687 | rewrite <- Hq; exact prime_107590001 | rewrite <- Hq; exact prime_96557 | contradiction].
Qed.
Lemma prime_205115282021455665897114700593932402728804164701536103180137503955397371 : prime 205115282021455665897114700593932402728804164701536103180137503955397371.
Proof.
  apply (pocklington 205115282021455665897114700593932402728804164701536103180137503955397371 (barrett 205115282021455665897114700593932402728804164701536103180137503955397371 233 60877932049732853912660050763817983788571952174805796232710289060433917096 249) (barrett_mod _ _ _ _) [(255515944373312847190720520512484175977, 2)]).
  - vm_compute. reflexivity.
  - cbn [map fst]. repeat constructor; cbn [In]; lia.
  - cbn [map fst In]. intros q Hq. repeat destruct Hq as [Hq|Hq]; [rewrite <- Hq; exact prime_255515944373312847190720520512484175977 | contradiction].
Qed.
Lemma prime_secp_p : prime 115792089237316195423570985008687907853269984665640564039457584007908834671663.
Proof.
  apply (pocklington 115792089237316195423570985008687907853269984665640564039457584007908834671663 (fold_red 256 4294968273) (fun x => fold_red_mod 256 4294968273 x ltac:(lia)) [(205115282021455665897114700593932402728804164701536103180137503955397371, 2)]).
  - vm_compute. reflexivity.
  - cbn [map fst]. repeat constructor; cbn [In]; lia.
  - cbn [map fst In]. intros q Hq. repeat destruct Hq as [Hq|Hq]; [rewrite <- Hq; exact prime_205115282021455665897114700593932402728804164701536103180137503955397371 | contradiction].
Qed.
