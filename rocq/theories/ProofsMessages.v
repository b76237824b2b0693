(** Proofs of the theorems of PropertiesMessages.v. *)
From Coq Require Import String Ascii List.
From Verif Require Import Bytes Errors Messages.
Import ListNotations.
Open Scope list_scope.
Open Scope string_scope.
From Coq Require Import Lia DecimalString DecimalNat Decimal.

(** Decimal digits. *)
Definition digit (c : ascii) : bool := (48 <=? nat_of_ascii c)%nat && (nat_of_ascii c <=? 57)%nat.
(** Strings of decimal digits. *)
Fixpoint digits (s : string) : bool := match s with EmptyString => true | String c s' => digit c && digits s' end.
Lemma digits_uint u : digits (NilEmpty.string_of_uint u) = true.
Proof. induction u; cbn [NilEmpty.string_of_uint digits]; rewrite ?IHu; reflexivity. Qed.
Lemma dec_inj m n : dec m = dec n -> m = n.
Proof.
  unfold dec. intro H. apply (f_equal NilEmpty.uint_of_string) in H. rewrite !NilEmpty.usu in H.
  assert (E : Nat.to_uint m = Nat.to_uint n) by congruence.
  apply (f_equal Nat.of_uint) in E. rewrite !Unsigned.of_to in E. exact E.
Qed.
Lemma digits_split d d' c x y : digits d = true -> digits d' = true -> digit c = false ->
  d ++ String c x = d' ++ String c y -> d = d' /\ x = y.
Proof.
  revert d'. induction d as [|a d IH]; intros [|a' d'] H1 H2 Hc E; cbn [append digits] in *.
  - injection E as ->. auto.
  - injection E as -> _. apply andb_prop in H2 as [H2 _]. congruence.
  - injection E as -> _. apply andb_prop in H1 as [H1 _]. congruence.
  - injection E as -> E. apply andb_prop in H1 as [_ H1]. apply andb_prop in H2 as [_ H2].
    destruct (IH d' H1 H2 Hc E) as [-> ->]. auto.
Qed.
Lemma dec_split m n c x y : digit c = false -> dec m ++ String c x = dec n ++ String c y -> m = n /\ x = y.
Proof.
  intros Hc H. apply digits_split in H as [H1 H2]; [|apply digits_uint|apply digits_uint|exact Hc].
  split; [apply dec_inj, H1|exact H2].
Qed.
Lemma app_inv (a x y : string) : a ++ x = a ++ y -> x = y.
Proof. induction a as [|c a IH]; cbn [append]; intro H; [exact H|]. injection H as H. apply IH, H. Qed.
Lemma prefix_app (a x : string) : prefix a (a ++ x) = true.
Proof. induction a as [|c a IH]; cbn [append prefix]; [destruct x; reflexivity|]. destruct (ascii_dec c c); [exact IH | congruence]. Qed.

Lemma C61_messages_identify_errors_proof (e1 e2 : any_error) :
  show e1 = show e2 -> e1 = e2.
Proof.
  assert (HI : forall i n i' n', show_signer_index (SignerIndexError i n) = show_signer_index (SignerIndexError i' n') -> i = i' /\ n = n').
  { intros i n i' n' H. unfold show_signer_index in H. cbn [append] in H. repeat (injection H as H).
    apply dec_split in H as [H1 H2]; [|reflexivity]. split; [exact H1|]. cbn [append] in H2. repeat (injection H2 as H2).
    apply dec_split in H2 as [H2 _]; [exact H2|reflexivity]. }
  assert (HC : forall i r i' r', show_contribution (RoundContributionError i r) = show_contribution (RoundContributionError i' r') -> i = i' /\ r = r').
  { intros i r i' r' H. unfold show_contribution in H. cbn [append] in H. repeat (injection H as H).
    apply dec_split in H as [H1 H2]; [|reflexivity]. split; [exact H1|]. 
    destruct r as [n| |], r' as [n'| |]; cbn [append] in H2; try discriminate; try reflexivity.
    repeat (injection H2 as H2). apply dec_split in H2 as [H2 _]; [rewrite H2; reflexivity|reflexivity]. }
  intro H. destruct e1 as [[]|[]|[]|[i n]|a|a|[i r]|a]; destruct e2 as [[]|[]|[]|[i' n']|a'|a'|[i' r']|a']; try reflexivity.
  all: try (apply HI in H as [-> ->]; reflexivity).
  all: try (apply HC in H as [-> ->]; reflexivity).
  all: try discriminate H.
  all: repeat match goal with a : signing_error |- _ => destruct a | a : verify_error |- _ => destruct a | a : finalize_error |- _ => destruct a end;
    solve [reflexivity | discriminate H].
Qed.

Lemma C61_decode_messages_proof (x : foreign_texts) (Hhex : hex_text x InvalidEncoding <> hex_text x InvalidLength) (Hps : point_text x <> scalar_text x) (Hforeign : forall s, s = point_text x \/ s = scalar_text x -> prefix "hex decoding error: " s = false /\ prefix "unexpected length " s = false /\ Custom s <> decode_of_key_agg KeyAggError /\ Custom s <> decode_of_tweak TweakError) :
  let own := fun e => match e with Custom _ => e = decode_of_key_agg KeyAggError \/ e = decode_of_tweak TweakError | _ => True end in
  (forall e1 e2, own e1 -> own e2 -> show_decode x e1 = show_decode x e2 -> e1 = e2) /\
  (forall e, exists s, show_decode x (Custom s) = show_decode x e).
Proof.
  cbv zeta. split; [|intro e; exists (show_reason x e); reflexivity].
  intros e1 e2 H1 H2 H.
  assert (R : show_reason x e1 = show_reason x e2).
  { unfold show_decode in H. cbn [append] in H. repeat (injection H as H). apply app_inv in H. cbn [append] in H. repeat (injection H as H). exact H. }
  clear H. destruct (Hforeign _ (or_introl eq_refl)) as (P1 & P2 & P3 & P4). destruct (Hforeign _ (or_intror eq_refl)) as (S1 & S2 & S3 & S4).
  destruct e1 as [h|n| | |s]; destruct e2 as [h'|n'| | |s']; cbn [show_reason] in R;
    try reflexivity; try (exfalso; congruence).
  1: { cbn [append] in R. repeat (injection R as R). f_equal. destruct h, h'; try reflexivity; exfalso; congruence. }
  1: { discriminate R. }
  1,2: exfalso; rewrite <- R in *; rewrite prefix_app in *; discriminate.
  1: { exfalso; destruct H2 as [E|E]; unfold decode_of_key_agg, decode_of_tweak in E; injection E as ->; discriminate R. }
  1: { discriminate R. }
  1: { cbn [append] in R. repeat (injection R as R). f_equal. apply dec_inj. exact R. }
  1,2: exfalso; rewrite <- R in *; rewrite prefix_app in *; discriminate.
  1: { exfalso; destruct H2 as [E|E]; unfold decode_of_key_agg, decode_of_tweak in E; injection E as ->; discriminate R. }
  1,2: exfalso; rewrite R in *; rewrite prefix_app in *; discriminate.
  1: { exfalso; rewrite R in *; destruct H2; contradiction. }
  1,2: exfalso; rewrite R in *; rewrite prefix_app in *; discriminate.
  1: { exfalso; rewrite R in *; destruct H2; contradiction. }
  1,2: exfalso; destruct H1 as [E|E]; unfold decode_of_key_agg, decode_of_tweak in E; injection E as ->; discriminate R.
  1,2: exfalso; rewrite <- R in *; destruct H1; contradiction.
  rewrite R. reflexivity.
Qed.
