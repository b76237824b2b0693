(** Proofs of the theorems of PropertiesOrder.v. *)
From Coq Require Import List ZArith Permutation.
From Verif Require Import Bytes Prims PrimsFacts SpecTags SpecBIP327 KeyAgg Nonces Order SpecOrder Toy ToyData.
Import ListNotations.
Open Scope list_scope.
From Coq Require Import Lia.
From Verif Require Import BytesFacts CodecFacts SpecView SpecFacts ProofsKeyAgg.
Open Scope Z_scope.

Lemma cmp_opp a : forall b, bytes_cmp b a = CompOpp (bytes_cmp a b).
Proof.
  induction a as [|x a IH]; intros [|y b]; try reflexivity. cbn [bytes_cmp].
  rewrite (Z.compare_antisym (b2z x) (b2z y)). destruct (b2z x ?= b2z y); cbn [CompOpp]; auto.
Qed.
Lemma cmp_eq a : forall b, bytes_cmp a b = Eq <-> a = b.
Proof.
  induction a as [|x a IH]; intros [|y b]; cbn [bytes_cmp]; try (split; [discriminate | discriminate]); [tauto|].
  destruct (b2z x ?= b2z y) eqn:E.
  - apply Z.compare_eq in E. apply b2z_inj in E as ->. rewrite IH. split; [now intros -> | now intros [= ->]].
  - split; [discriminate|]. intros [= -> ->]. rewrite Z.compare_refl in E. discriminate.
  - split; [discriminate|]. intros [= -> ->]. rewrite Z.compare_refl in E. discriminate.
Qed.
Lemma cmp_refl a : bytes_cmp a a = Eq.
Proof. now apply cmp_eq. Qed.
Lemma cmp_prefix p a b : bytes_cmp (p ++ a) (p ++ b) = bytes_cmp a b.
Proof. induction p as [|x p IH]; [reflexivity|]. cbn [app bytes_cmp]. now rewrite Z.compare_refl. Qed.
Lemma cmp_lt a : forall b, bytes_cmp a b = Lt <-> lex_lt a b.
Proof.
  intro b. split.
  - revert b. induction a as [|x a IH]; intros [|y b] H; cbn [bytes_cmp] in H; try discriminate.
    + exists [], [], (y :: b). repeat split.
    + destruct (b2z x ?= b2z y) eqn:E; try discriminate.
      * apply Z.compare_eq in E. apply b2z_inj in E as ->. destruct (IH b H) as (p & a' & b' & -> & -> & HH).
        exists (y :: p), a', b'. auto.
      * exists [], (x :: a), (y :: b). repeat split. exact E.
  - intros (p & a' & b' & -> & -> & H). rewrite cmp_prefix. destruct a' as [|x a'], b' as [|y b']; try contradiction; [reflexivity|].
    cbn [bytes_cmp]. change (b2z x ?= b2z y = Lt) in H. now rewrite H.
Qed.
Lemma cmp_gt a b : bytes_cmp a b = Gt <-> lex_lt b a.
Proof. rewrite <- cmp_lt, (cmp_opp a b). destruct (bytes_cmp a b); cbn [CompOpp]; split; congruence. Qed.
Lemma cmp_app a : forall b c d, length a = length b -> bytes_cmp (a ++ c) (b ++ d) = then_cmp (bytes_cmp a b) (bytes_cmp c d).
Proof.
  induction a as [|x a IH]; intros [|y b] c d HL; try discriminate; [reflexivity|]. cbn [app bytes_cmp].
  destruct (b2z x ?= b2z y); [|reflexivity | reflexivity]. apply IH. now injection HL.
Qed.
Lemma lex_total a b : ~ lex_lt a b -> ~ lex_lt b a -> a = b.
Proof. rewrite <- cmp_lt, <- cmp_gt. intros H1 H2. apply cmp_eq. destruct (bytes_cmp a b); congruence. Qed.
Lemma lex_irrefl a : ~ lex_lt a a.
Proof. rewrite <- cmp_lt, cmp_refl. discriminate. Qed.
Lemma cmp_lt_trans a : forall b c, bytes_cmp a b = Lt -> bytes_cmp b c = Lt -> bytes_cmp a c = Lt.
Proof.
  induction a as [|x a IH]; intros [|y b] [|z c] H1 H2; cbn [bytes_cmp] in *; try discriminate; try reflexivity.
  destruct (b2z x ?= b2z y) eqn:E1; try discriminate; destruct (b2z y ?= b2z z) eqn:E2; try discriminate.
  - apply Z.compare_eq in E1, E2. rewrite E1, E2, Z.compare_refl. exact (IH _ _ H1 H2).
  - apply Z.compare_eq in E1. rewrite E1, E2. reflexivity.
  - apply Z.compare_eq in E2. rewrite <- E2, E1. reflexivity.
  - rewrite Z.compare_lt_iff in E1, E2. rewrite (proj2 (Z.compare_lt_iff _ _) (Z.lt_trans _ _ _ E1 E2)). reflexivity.
Qed.
Lemma ascending_unique l : forall l', Permutation l l' -> ascending l -> ascending l' -> l = l'.
Proof.
  induction l as [|a l IH]; intros l' HP H H'; [now apply Permutation_nil in HP|].
  destruct l' as [|b l']; [symmetry in HP; now apply Permutation_nil_cons in HP|].
  cbn [ascending] in H, H'. destruct H as [H1 H2], H' as [H1' H2'].
  assert (E : a = b).
  { apply lex_total.
    - destruct (Permutation_in a HP (or_introl eq_refl)) as [-> | Hin]; [apply lex_irrefl | now apply H1'].
    - destruct (Permutation_in b (Permutation_sym HP) (or_introl eq_refl)) as [-> | Hin]; [apply lex_irrefl | now apply H1]. }
  subst b. f_equal. apply IH; [now apply Permutation_cons_inv in HP | exact H2 | exact H2'].
Qed.

Section Sorting.
Context {Pr : prims} {Laws : prims_ok Pr}.
Lemma insert_perm (P : point Pr) l : Permutation (P :: l) (insert_key P l).
Proof.
  induction l as [|Q l IH]; [reflexivity|]. cbn [insert_key]. destruct (point_cmp P Q); try reflexivity.
  rewrite perm_swap. now constructor.
Qed.
Lemma sort_perm (l : list (point Pr)) : Permutation l (sort_keys l).
Proof. induction l as [|P l IH]; [reflexivity|]. unfold sort_keys in *. cbn [fold_right]. rewrite <- insert_perm. now constructor. Qed.
Lemma insert_asc (P : point Pr) l : ascending (map ser_point l) -> ascending (map ser_point (insert_key P l)).
Proof.
  induction l as [|Q l IH]; intro H; [split; [intros b []|exact I]|]. cbn [insert_key]. cbn [map ascending] in H. destruct H as [H1 H2].
  assert (HC : point_cmp P Q <> Gt -> ascending (map ser_point (P :: Q :: l))).
  { intro HN. cbn [map ascending]. split; [|split; [exact H1 | exact H2]]. intros b [<- | Hb] HL.
    - apply cmp_gt in HL. contradiction.
    - destruct (bytes_cmp (ser_point P) (ser_point Q)) eqn:E.
      + apply cmp_eq in E. apply (H1 b Hb). now rewrite <- E.
      + apply (H1 b Hb). apply cmp_lt. apply cmp_lt_trans with (ser_point P); [now apply cmp_lt | exact E].
      + exact (HN E). }
  destruct (point_cmp P Q) eqn:E; try (apply HC; discriminate).
  cbn [map ascending]. split; [|exact (IH H2)]. intros b Hb.
  apply (Permutation_in b (Permutation_sym (Permutation_map ser_point (insert_perm P l)))) in Hb. cbn [map] in Hb. destruct Hb as [<- | Hb]; [|now apply H1].
  rewrite <- cmp_lt. unfold point_cmp in E. congruence.
Qed.
Lemma sort_asc (l : list (point Pr)) : ascending (map ser_point (sort_keys l)).
Proof. induction l as [|P l IH]; [exact I|]. unfold sort_keys in *. cbn [fold_right]. now apply insert_asc. Qed.
Lemma mpoint_cmp_ser (P Q : pt) : mpoint_cmp P Q = bytes_cmp (ser_mpoint P) (ser_mpoint Q).
Proof.
  unfold mpoint_cmp. destruct (not_inf P) as [P'|] eqn:EP, (not_inf Q) as [Q'|] eqn:EQ;
    repeat match goal with H : not_inf _ = Some _ |- _ => apply not_inf_Some in H; rewrite H | H : not_inf _ = None |- _ => apply not_inf_None in H; rewrite H end;
    rewrite ?ser_mpoint_O, ?ser_mpoint_point.
  - reflexivity.
  - unfold ser_point. destruct (pt_odd P'); reflexivity.
  - unfold ser_point. destruct (pt_odd Q'); reflexivity.
  - symmetry. apply cmp_refl.
Qed.
Lemma map_ser_inj (l l' : list (point Pr)) : map ser_point l = map ser_point l' -> l = l'.
Proof.
  revert l'. induction l as [|P l IH]; intros [|Q l'] H; try discriminate; [reflexivity|]. cbn [map] in H.
  pose proof (f_equal (hd []) H) as H1. pose proof (f_equal (@tl _) H) as H2. cbn [hd tl] in H1, H2. f_equal; [now apply ser_point_inj | now apply IH].
Qed.
End Sorting.

Section C72_order_of_encodings.
Context {Pr : prims}.
Add Ring ring_C72_order_of_encodings : (fe_ring_theory (n := @ord Pr)).
Lemma C72_order_of_encodings_proof {Laws : prims_ok Pr} :
  let order_of := fun (A : Type) (cmp : A -> A -> comparison) (enc : A -> bytes) => forall a b : A,
    (cmp a b = Lt <-> lex_lt (enc a) (enc b)) /\ (cmp a b = Gt <-> lex_lt (enc b) (enc a)) /\ (cmp a b = Eq <-> a = b) in
  order_of (point Pr) point_cmp ser_point /\
  order_of pt mpoint_cmp ser_mpoint /\
  order_of (pub_nonce Pr) pubnonce_cmp pubnonce_to_bytes /\
  order_of (agg_nonce Pr) aggnonce_cmp aggnonce_to_bytes.
Proof.
  intro order_of.
  assert (H : forall A (cmp : A -> A -> comparison) (enc : A -> bytes), (forall a b, cmp a b = bytes_cmp (enc a) (enc b)) ->
    (forall a b, enc a = enc b -> a = b) -> order_of A cmp enc).
  { intros A cmp enc HC HI a b. rewrite HC, cmp_lt, cmp_gt, cmp_eq. split; [reflexivity|]. split; [reflexivity|]. split; [apply HI | now intros ->]. }
  split; [|split; [|split]]; apply H.
  - reflexivity.
  - intros a b. apply ser_point_inj.
  - apply mpoint_cmp_ser.
  - intros a b. apply ser_mpoint_inj.
  - intros [a1 a2] [b1 b2]. unfold pubnonce_cmp, pubnonce_to_bytes, point_cmp. cbn [pR1 pR2]. symmetry. apply cmp_app. now rewrite !ser_point_len.
  - intros [a1 a2] [b1 b2] E. unfold pubnonce_to_bytes in E. cbn [pR1 pR2] in E. apply app_inj_len in E as [E1 E2]; [|now rewrite !ser_point_len].
    apply ser_point_inj in E1, E2. now subst.
  - intros [a1 a2] [b1 b2]. unfold aggnonce_cmp, aggnonce_to_bytes. cbn [aR1 aR2]. rewrite !mpoint_cmp_ser. symmetry. apply cmp_app. now rewrite !ser_mpoint_len.
  - intros [a1 a2] [b1 b2] E. unfold aggnonce_to_bytes in E. cbn [aR1 aR2] in E. apply app_inj_len in E as [E1 E2]; [|now rewrite !ser_mpoint_len].
    apply ser_mpoint_inj in E1, E2. now subst.
Qed.
End C72_order_of_encodings.

Section C72_sort_is_key_sort.
Context {Pr : prims}.
Add Ring ring_C72_sort_is_key_sort : (fe_ring_theory (n := @ord Pr)).
Lemma C72_sort_is_key_sort_proof {Laws : prims_ok Pr} (pks pks' : list (point Pr)) :
  key_sorted (map ser_point pks) (map ser_point pks') <-> pks' = sort_keys pks.
Proof.
  assert (HS : key_sorted (map ser_point pks) (map ser_point (sort_keys pks))) by (split; [apply Permutation_map, sort_perm | apply sort_asc]).
  split; [|now intros ->]. intros [HP HA]. apply map_ser_inj. apply ascending_unique; [|exact HA | exact (proj2 HS)].
  rewrite <- HP. exact (proj1 HS).
Qed.
End C72_sort_is_key_sort.

Section C72_sorted_contexts_agree.
Context {Pr : prims}.
Add Ring ring_C72_sorted_contexts_agree : (fe_ring_theory (n := @ord Pr)).
Lemma C72_sorted_contexts_agree_proof {Laws : prims_ok Pr} {Tags : tags_ok Pr} (pks pks' : list (point Pr)) (Hperm : Permutation pks pks') :
  key_agg_new (sort_keys pks) = key_agg_new (sort_keys pks') /\
  (key_agg_new (sort_keys pks) = Panic <-> key_agg_new pks = Panic) /\
  (forall c bs, key_agg_new (sort_keys pks) = Ok c -> key_sorted (map ser_point pks') bs ->
     exists k, key_agg bs = Ret k /\ Q_ k = aggregated_pubkey c /\ map ser_point (pubkeys c) = bs).
Proof.
  assert (HS : forall l : list (point Pr), key_sorted (map ser_point l) (map ser_point (sort_keys l))) by (intro l; split; [apply Permutation_map, sort_perm | apply sort_asc]).
  assert (E : sort_keys pks = sort_keys pks').
  { apply map_ser_inj. apply ascending_unique; [|apply sort_asc | apply sort_asc]. apply Permutation_map.
    now rewrite <- !sort_perm. }
  split; [now rewrite E|]. split.
  - destruct (C01_new_is_bip327_keyagg_proof pks) as (_ & _ & _ & D). destruct (C01_new_is_bip327_keyagg_proof (sort_keys pks)) as (_ & _ & _ & D').
    rewrite D, D'. unfold zlen. rewrite <- (Permutation_length (sort_perm pks)). pose proof (sort_perm pks) as HP.
    split; (intros [H|H]; [left | now right]); [rewrite H in HP; now apply Permutation_sym, Permutation_nil in HP | now rewrite H].
  - intros c bs Hc [HP HA]. destruct (C01_new_is_bip327_keyagg_proof (sort_keys pks)) as (A & _). destruct (A c Hc) as (A1 & A2 & _).
    assert (EB : bs = map ser_point (sort_keys pks)).
    { apply ascending_unique; [|exact HA | apply sort_asc]. rewrite <- HP, E. apply Permutation_map, sort_perm. }
    subst bs. eexists. split; [exact A1|]. split; [reflexivity|]. now rewrite A2.
Qed.
End C72_sorted_contexts_agree.
