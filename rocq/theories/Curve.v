(** The group law of the curve y^2 = x^3 + b over a field in which 2, 3 and b
    are not zero, with the affine formulas of /repo/reference.py:45-57. *)
From Coq Require Import Field Ring Bool.

Section Curve.
Context {F : Type} (F0 F1 : F) (Fadd Fmul Fsub : F -> F -> F) (Fopp : F -> F)
  (Fdiv : F -> F -> F) (Finv : F -> F).
Hypothesis Fth : field_theory F0 F1 Fadd Fmul Fsub Fopp Fdiv Finv (@eq F).
Add Field Ff : Fth.
Declare Scope f_scope.
Local Notation "0" := F0 : f_scope.
Local Notation "1" := F1 : f_scope.
Local Infix "+" := Fadd : f_scope.
Local Infix "*" := Fmul : f_scope.
Local Infix "-" := Fsub : f_scope.
Local Notation "- x" := (Fopp x) : f_scope.
Local Infix "/" := Fdiv : f_scope.
Local Open Scope f_scope.
Variable b : F.
Variable Feqb : F -> F -> bool.
Hypothesis Feqb_eq : forall x y, Feqb x y = true <-> x = y.

(** A point: infinity or a pair of coordinates. *)
Inductive pnt : Type := Inf | Aff (x y : F).

(** The curve equation, y^2 = x^3 + b. *)
Definition on_curve (P : pnt) : Prop :=
  match P with Inf => True | Aff x y => y * y = x * x * x + b end.

(** The slope of the chord or tangent, /repo/reference.py:52-55. *)
Definition slope (x1 y1 x2 y2 : F) : F :=
  if Feqb x1 x2 then (1 + 1 + 1) * (x1 * x1) / ((1 + 1) * y1) else (y2 - y1) / (x2 - x1).
(** The third point of a line of slope [l], reflected, /repo/reference.py:56-57. *)
Definition third (l x1 y1 x2 : F) : pnt :=
  let x3 := l * l - x1 - x2 in Aff x3 (l * (x1 - x3) - y1).
(** Point addition, /repo/reference.py:45-57.  A point with y = 0 doubles to infinity
    (secp256k1 has no such point). *)
Definition padd (P Q : pnt) : pnt :=
  match P, Q with
  | Inf, _ => Q
  | _, Inf => P
  | Aff x1 y1, Aff x2 y2 =>
      if Feqb x1 x2 && Feqb y1 (- y2) then Inf
      else third (slope x1 y1 x2 y2) x1 y1 x2
  end.
(** The opposite point. *)
Definition popp (P : pnt) : pnt := match P with Inf => Inf | Aff x y => Aff x (- y) end.

Hypothesis two_nz : 1 + 1 <> 0.
Hypothesis three_nz : 1 + 1 + 1 <> 0.
Hypothesis b_nz : b <> 0.

Lemma Feqb_refl x : Feqb x x = true.
Proof. now apply Feqb_eq. Qed.
Lemma Feqb_neq x y : Feqb x y = false <-> x <> y.
Proof. destruct (Feqb x y) eqn:E; split; intros; try congruence. apply Feqb_eq in E. contradiction. intro; subst. rewrite Feqb_refl in E. discriminate. Qed.
Lemma Feq_dec (x y : F) : x = y \/ x <> y.
Proof. destruct (Feqb x y) eqn:E; [left; now apply Feqb_eq | right; now apply Feqb_neq]. Qed.
Lemma sub_nz a c : a - c <> 0 <-> a <> c.
Proof.
  split; intros H E; apply H; [rewrite E; ring|].
  transitivity (a - c + c); [ring | rewrite E; ring].
Qed.
Lemma sub_z a c : a - c = 0 <-> a = c.
Proof. split; intro H; [transitivity (a - c + c); [ring | rewrite H; ring] | rewrite H; ring]. Qed.
Lemma mul_z a c : a * c = 0 -> a = 0 \/ c = 0.
Proof.
  intro H. destruct (Feq_dec a 0) as [E|E]; [now left|right].
  transitivity (Finv a * (a * c)); [field; exact E | rewrite H; ring].
Qed.
Lemma mul_nz a c : a <> 0 -> c <> 0 -> a * c <> 0.
Proof. intros Ha Hc H. apply mul_z in H as [?|?]; contradiction. Qed.
Lemma mul_cancel a c d : a <> 0 -> a * c = a * d -> c = d.
Proof.
  intros Ha H. apply sub_z. assert (E : a * (c - d) = 0) by (transitivity (a * c - a * d); [ring | rewrite H; ring]).
  apply mul_z in E as [?|?]; [contradiction|assumption].
Qed.
Lemma opp_self y : y = - y -> y = 0.
Proof.
  intro H. apply (mul_cancel (1 + 1)); [exact two_nz|].
  transitivity (y + y); [ring|]. rewrite H at 2. ring.
Qed.
Lemma opp_opp y : - - y = y. Proof. ring. Qed.
Lemma div_nz_num a c : c <> 0 -> a / c <> 0 -> a <> 0.
Proof. intros Hc H E. apply H. rewrite E. field. exact Hc. Qed.

(** Curve points with equal x coordinates have equal or opposite y. *)
Lemma same_x x y y' : y * y = x * x * x + b -> y' * y' = x * x * x + b -> y = y' \/ y = - y'.
Proof.
  intros H H'. assert (E : (y - y') * (y + y') = 0).
  { transitivity (y * y - y' * y'); [ring | rewrite H, H'; ring]. }
  apply mul_z in E as [E|E]; [left; now apply sub_z | right; apply sub_z; rewrite <- E; ring].
Qed.

(** *** First properties of the addition *)

Lemma add_Inf_r P : padd P Inf = P.
Proof. now destruct P. Qed.
Lemma popp_popp P : popp (popp P) = P.
Proof. destruct P; cbn [popp]; [reflexivity | now rewrite opp_opp]. Qed.
Lemma popp_on P : on_curve P -> on_curve (popp P).
Proof. destruct P as [|x y]; cbn [popp on_curve]; [trivial|]. intros <-. ring. Qed.
Lemma padd_opp P : padd P (popp P) = Inf.
Proof. destruct P as [|x y]; cbn [padd popp]; [reflexivity|]. now rewrite opp_opp, !Feqb_refl. Qed.

(** The two ways in which a sum of finite points is finite. *)
Lemma padd_chord x1 y1 x2 y2 : x1 <> x2 ->
  padd (Aff x1 y1) (Aff x2 y2) = third ((y2 - y1) / (x2 - x1)) x1 y1 x2.
Proof. intro H. apply Feqb_neq in H. unfold padd, slope. now rewrite H. Qed.
Lemma padd_tangent x y : y <> 0 ->
  padd (Aff x y) (Aff x y) = third ((1 + 1 + 1) * (x * x) / ((1 + 1) * y)) x y x.
Proof.
  intro H. unfold padd, slope. rewrite Feqb_refl. cbn [andb].
  replace (Feqb y (- y)) with false; [reflexivity|]. symmetry. apply Feqb_neq. intro E. apply opp_self in E. contradiction.
Qed.
(** Two curve points: opposite, equal (and not their own opposites), or of different x. *)
Lemma pair_cases x1 y1 x2 y2 : on_curve (Aff x1 y1) -> on_curve (Aff x2 y2) ->
  Aff x2 y2 = popp (Aff x1 y1) \/ (x1 = x2 /\ y1 = y2 /\ y1 <> 0) \/ x1 <> x2.
Proof.
  cbn [on_curve popp]. intros H1 H2. destruct (Feq_dec x1 x2) as [->|N]; [|now right; right].
  destruct (same_x _ _ _ H1 H2) as [->| ->].
  - destruct (Feq_dec y2 0) as [->|N]; [left; f_equal; ring | right; left; auto].
  - left. now rewrite opp_opp.
Qed.

Lemma padd_comm P Q : on_curve P -> on_curve Q -> padd P Q = padd Q P.
Proof.
  destruct P as [|x1 y1]; [intros; now rewrite add_Inf_r|]. destruct Q as [|x2 y2]; [reflexivity|].
  intros H1 H2. destruct (pair_cases _ _ _ _ H1 H2) as [E|[(-> & -> & _)|N]].
  - rewrite E, padd_opp. rewrite <- (popp_popp (Aff x1 y1)) at 2. now rewrite padd_opp.
  - reflexivity.
  - rewrite !padd_chord by congruence. unfold third.
    assert (x2 - x1 <> 0) by (apply sub_nz; congruence). assert (x1 - x2 <> 0) by (now apply sub_nz).
    f_equal; field; auto.
Qed.

Lemma padd_on P Q : on_curve P -> on_curve Q -> on_curve (padd P Q).
Proof.
  destruct P as [|x1 y1]; [trivial|]. destruct Q as [|x2 y2]; [trivial|].
  intros H1 H2. destruct (pair_cases _ _ _ _ H1 H2) as [E|[(-> & -> & Ny)|N]].
  - rewrite E, padd_opp. exact I.
  - rewrite padd_tangent by exact Ny. unfold third. cbn [on_curve] in *.
    field_simplify_eq [H1]; [ring [H1] | auto].
  - rewrite padd_chord by exact N. assert (x2 - x1 <> 0) by (apply sub_nz; congruence). unfold third. cbn [on_curve] in *.
    field_simplify_eq [H1 H2]; [ring [H1 H2] | auto].
Qed.

Lemma popp_add P Q : on_curve P -> on_curve Q -> popp (padd P Q) = padd (popp P) (popp Q).
Proof.
  destruct P as [|x1 y1]; [trivial|]. destruct Q as [|x2 y2]; [trivial|].
  intros H1 H2. destruct (pair_cases _ _ _ _ H1 H2) as [E|[(-> & -> & Ny)|N]].
  - now rewrite E, !padd_opp.
  - cbn [popp]. assert (- y2 <> 0) by (intro E; apply Ny; rewrite <- (opp_opp y2), E; ring).
    rewrite !padd_tangent by assumption. unfold third. cbn [popp]. f_equal; field; auto.
  - cbn [popp]. rewrite !padd_chord by assumption. assert (x2 - x1 <> 0) by (apply sub_nz; congruence).
    unfold third. cbn [popp]. f_equal; field; auto.
Qed.

Lemma padd_Inf P Q : on_curve P -> on_curve Q -> padd P Q = Inf -> Q = popp P.
Proof.
  destruct P as [|x1 y1]; [trivial|]. destruct Q as [|x2 y2]; [discriminate|].
  intros H1 H2. destruct (pair_cases _ _ _ _ H1 H2) as [E|[(-> & -> & Ny)|N]]; [trivial| |].
  - rewrite padd_tangent by exact Ny. discriminate.
  - rewrite padd_chord by exact N. discriminate.
Qed.
Lemma pnt_dec (P Q : pnt) : P = Q \/ P <> Q.
Proof.
  destruct P as [|x y], Q as [|x' y']; try (now left); try (right; discriminate).
  destruct (Feq_dec x x') as [->|N]; [|right; congruence]. destruct (Feq_dec y y') as [->|N]; [now left | right; congruence].
Qed.
Lemma neq_x x1 y1 x2 y2 : on_curve (Aff x1 y1) -> on_curve (Aff x2 y2) ->
  Aff x1 y1 <> Aff x2 y2 -> Aff x1 y1 <> popp (Aff x2 y2) -> x1 <> x2.
Proof.
  intros H1 H2 N N' E. subst x2. destruct (same_x _ _ _ H1 H2) as [->| ->]; [now apply N | now apply N'].
Qed.
Lemma neq_y x y : Aff x y <> popp (Aff x y) -> y <> 0.
Proof. intros N E. apply N. cbn [popp]. rewrite E. f_equal. ring. Qed.

(** *** Cancellation *)
(* tangent at P, then subtract P *)
Lemma cancel_tangent x y : y * y = x * x * x + b -> y <> 0 ->
  padd (padd (Aff x y) (Aff x y)) (Aff x (- y)) = Aff x y.
Proof.
  intros H N. set (S := padd (Aff x y) (Aff x y)).
  assert (HS : on_curve S) by (apply padd_on; exact H).
  assert (ES : S = third ((1 + 1 + 1) * (x * x) / ((1 + 1) * y)) x y x) by (apply padd_tangent; exact N).
  destruct (pnt_dec S (Aff x (- y))) as [E|N1].
  { rewrite E. change (Aff x (- y)) with (popp (Aff x y)). rewrite <- popp_add by exact H.
    fold S. rewrite E. cbn [popp]. now rewrite opp_opp. }
  destruct (pnt_dec S (Aff x y)) as [E|N2].
  { exfalso. apply N. rewrite ES in E. unfold third in E. injection E as Ex Ey. rewrite Ex in Ey. apply opp_self.
    transitivity (- (- y)); [ring|]. f_equal. rewrite <- Ey at 1. ring. }
  unfold third in ES. set (l := (1 + 1 + 1) * (x * x) / ((1 + 1) * y)) in *. cbv zeta in ES.
  set (x3 := l * l - x - x) in *. rewrite ES in *.
  assert (Nx : x3 <> x).
  { apply (neq_x _ _ x y HS H); [exact N2|exact N1]. }
  rewrite padd_chord by exact Nx. unfold third.
  assert (D : x - x3 <> 0) by (apply sub_nz; congruence).
  assert (El : (- y - (l * (x - x3) - y)) / (x - x3) = - l) by (field; exact D).
  rewrite El. f_equal; unfold x3; ring.
Qed.
(* chord through P and Q, then subtract Q *)
Lemma cancel_chord x1 y1 x2 y2 : y1 * y1 = x1 * x1 * x1 + b -> y2 * y2 = x2 * x2 * x2 + b -> x1 <> x2 ->
  padd (padd (Aff x1 y1) (Aff x2 y2)) (Aff x2 (- y2)) = Aff x1 y1.
Proof.
  intros H1 H2 N. set (S := padd (Aff x1 y1) (Aff x2 y2)).
  assert (HS : on_curve S) by (apply padd_on; [exact H1|exact H2]).
  assert (ES : S = third ((y2 - y1) / (x2 - x1)) x1 y1 x2) by (apply padd_chord; exact N).
  assert (D0 : x2 - x1 <> 0) by (apply sub_nz; congruence).
  unfold third in ES. set (l := (y2 - y1) / (x2 - x1)) in *. cbv zeta in ES.
  assert (Ey : y1 = y2 - l * (x2 - x1)) by (unfold l; field; exact D0).
  assert (Eq : l * (y1 + y2) = x1 * x1 + x1 * x2 + x2 * x2).
  { apply (mul_cancel (x2 - x1)); [exact D0|].
    transitivity (y2 * y2 - y1 * y1); [rewrite Ey; ring | rewrite H1, H2; ring]. }
  assert (Eq2 : (1 + 1) * y2 * l = x1 * x1 + x1 * x2 + x2 * x2 + l * l * (x2 - x1)).
  { rewrite <- Eq, Ey. ring. }
  clearbody l.
  destruct (Feq_dec (l * l - x1 - x2) x2) as [Ex|Nx].
  - (* the line is tangent at Q *)
    assert (Ell : l * l = x1 + x2 + x2) by (transitivity (l * l - x1 - x2 + x1 + x2); [ring | rewrite Ex; ring]).
    assert (Et : (1 + 1) * y2 * l = (1 + 1 + 1) * (x2 * x2)) by (rewrite Eq2, Ell; ring).
    assert (Ny : y2 <> 0).
    { intro E. assert (E3 : (1 + 1 + 1) * (x2 * x2) = 0) by (rewrite <- Et, E; ring).
      apply mul_z in E3 as [E3|E3]; [contradiction|]. apply mul_z in E3.
      assert (E4 : x2 = 0) by tauto. apply b_nz. transitivity (y2 * y2 - x2 * x2 * x2); [rewrite H2; ring | rewrite E, E4; ring]. }
    assert (Hl : l = (1 + 1 + 1) * (x2 * x2) / ((1 + 1) * y2)) by (rewrite <- Et; field; auto).
    assert (ES' : S = Aff x2 (- y2)).
    { rewrite ES. rewrite Ex. f_equal. rewrite Ey. ring. }
    rewrite ES'. assert (Ny' : - y2 <> 0) by (intro E; apply Ny; rewrite <- (opp_opp y2), E; ring).
    rewrite padd_tangent by exact Ny'. unfold third.
    replace ((1 + 1 + 1) * (x2 * x2) / ((1 + 1) * - y2)) with (- l) by (rewrite Hl; field; auto).
    assert (Ex1 : - l * - l - x2 - x2 = x1) by (transitivity (l * l - x2 - x2); [ring | rewrite Ell; ring]).
    rewrite Ex1. f_equal. rewrite Ey. ring.
  - set (x3 := l * l - x1 - x2) in *. rewrite ES.
    rewrite padd_chord by exact Nx. unfold third.
    assert (D : x2 - x3 <> 0) by (apply sub_nz; congruence).
    replace ((- y2 - (l * (x1 - x3) - y1)) / (x2 - x3)) with (- l).
    + f_equal; unfold x3; rewrite ?Ey; ring.
    + rewrite Ey. field. exact D.
Qed.

Lemma padd_cancel P Q : on_curve P -> on_curve Q -> padd (padd P Q) (popp Q) = P.
Proof.
  destruct Q as [|x2 y2]; [intros; now rewrite !add_Inf_r|].
  destruct P as [|x1 y1]; [intros _ H; change (padd Inf (Aff x2 y2)) with (Aff x2 y2); apply padd_opp|].
  intros H1 H2. destruct (pair_cases _ _ _ _ H1 H2) as [E|[(-> & -> & Ny)|N]].
  - rewrite E, padd_opp, popp_popp. reflexivity.
  - now apply cancel_tangent.
  - now apply cancel_chord.
Qed.
Lemma padd_inj P P' Q : on_curve P -> on_curve P' -> on_curve Q -> padd P Q = padd P' Q -> P = P'.
Proof. intros H1 H2 H E. rewrite <- (padd_cancel P Q), <- (padd_cancel P' Q) by assumption. now rewrite E. Qed.

(** *** Associativity: the three generic identities *)
Lemma den_nz e d f : d <> 0 -> f <> 0 -> f = e / d -> e <> 0.
Proof. intros Hd Hf Ef E. apply Hf. rewrite Ef, E. field. exact Hd. Qed.

Ltac den N := let E := fresh in intro E; apply N; field_simplify_eq; [refine (eq_trans _ E); ring | repeat split; auto].

Lemma spec1 x1 y1 x2 y2 x3 y3 l x12 y12 m x23 y23 :
  y1 * y1 = x1 * x1 * x1 + b -> y2 * y2 = x2 * x2 * x2 + b -> y3 * y3 = x3 * x3 * x3 + b ->
  x2 - x1 <> 0 -> x3 - x2 <> 0 -> x3 - x12 <> 0 -> x23 - x1 <> 0 ->
  l = (y2 - y1) / (x2 - x1) -> x12 = l * l - x1 - x2 -> y12 = l * (x1 - x12) - y1 ->
  m = (y3 - y2) / (x3 - x2) -> x23 = m * m - x2 - x3 -> y23 = m * (x2 - x23) - y2 ->
  third ((y3 - y12) / (x3 - x12)) x12 y12 x3 = third ((y23 - y1) / (x23 - x1)) x1 y1 x23.
Proof.
  intros H1 H2 H3 N1 N2 N3 N4 -> E12 Ey12 -> E23 Ey23. subst y12 y23. subst x12 x23.
  assert (D1 : x3 * ((x2 - x1) * (x2 - x1)) - ((y2 - y1) * (y2 - y1) - x1 * ((x2 - x1) * (x2 - x1)) - x2 * ((x2 - x1) * (x2 - x1))) <> 0).
  { refine (den_nz _ ((x2 - x1) * (x2 - x1)) _ _ N3 _); [now apply mul_nz | field; exact N1]. }
  assert (D2 : (y3 - y2) * (y3 - y2) - x2 * ((x3 - x2) * (x3 - x2)) - x3 * ((x3 - x2) * (x3 - x2)) - x1 * ((x3 - x2) * (x3 - x2)) <> 0).
  { refine (den_nz _ ((x3 - x2) * (x3 - x2)) _ _ N4 _); [now apply mul_nz | field; exact N2]. }
  match goal with |- third ?l' ?x12 _ ?x3 = third ?m' ?x1 _ ?x23 =>
    assert (Ex : l' * l' - x12 - x3 = m' * m' - x1 - x23) end.
  { field_simplify_eq [H1 H2 H3]; [ring [H1 H2 H3] | repeat split; auto]. }
  unfold third. rewrite <- Ex. f_equal. clear Ex.
  field_simplify_eq [H1 H2 H3]; [ring [H1 H2 H3] | repeat split; auto].
Qed.

Lemma spec2 x1 y1 x3 y3 l x12 y12 m x23 y23 :
  y1 * y1 = x1 * x1 * x1 + b -> y3 * y3 = x3 * x3 * x3 + b ->
  y1 <> 0 -> x3 - x1 <> 0 -> x3 - x12 <> 0 -> x23 - x1 <> 0 ->
  l = (1 + 1 + 1) * (x1 * x1) / ((1 + 1) * y1) -> x12 = l * l - x1 - x1 -> y12 = l * (x1 - x12) - y1 ->
  m = (y3 - y1) / (x3 - x1) -> x23 = m * m - x1 - x3 -> y23 = m * (x1 - x23) - y1 ->
  third ((y3 - y12) / (x3 - x12)) x12 y12 x3 = third ((y23 - y1) / (x23 - x1)) x1 y1 x23.
Proof.
  intros H1 H3 N1 N2 N3 N4 -> E12 Ey12 -> E23 Ey23. subst y12 y23. subst x12 x23.
  match goal with |- third ?l' ?x12 _ ?x3 = third ?m' ?x1 _ ?x23 =>
    assert (Ex : l' * l' - x12 - x3 = m' * m' - x1 - x23) end.
  { field_simplify_eq [H1 H3]; [ring [H1 H3] | repeat split; auto].
    den N4. den N3. }
  unfold third. rewrite <- Ex. f_equal. clear Ex.
  field_simplify_eq [H1 H3]; [ring [H1 H3] | repeat split; auto].
  den N3. den N4.
Qed.

(* the denominator of the third point of spec3 *)
Ltac den4 x1 y1 N3 N4 N1 :=
  let X := constr:((1 + (1 + 1)) * (x1 * x1) * ((1 + (1 + 1)) * (x1 * x1)) -
    x1 * ((1 + 1) * y1 * ((1 + 1) * y1)) - x1 * ((1 + 1) * y1 * ((1 + 1) * y1)) - x1 * ((1 + 1) * y1 * ((1 + 1) * y1))) in
  let NX := fresh in assert (NX : X <> 0) by den N3;
  refine (den_nz _ ((1 + 1) * y1 * X * ((1 + 1) * y1 * X)) _ _ N4 _);
  [repeat apply mul_nz; assumption | field; repeat split; assumption].

Lemma spec3 x1 y1 l x2 y2 m x3 y3 :
  y1 * y1 = x1 * x1 * x1 + b ->
  y1 <> 0 -> y2 <> 0 -> x2 - x1 <> 0 -> x3 - x1 <> 0 ->
  l = (1 + 1 + 1) * (x1 * x1) / ((1 + 1) * y1) -> x2 = l * l - x1 - x1 -> y2 = l * (x1 - x2) - y1 ->
  m = (y2 - y1) / (x2 - x1) -> x3 = m * m - x1 - x2 -> y3 = m * (x1 - x3) - y1 ->
  third ((1 + 1 + 1) * (x2 * x2) / ((1 + 1) * y2)) x2 y2 x2 = third ((y3 - y1) / (x3 - x1)) x1 y1 x3.
Proof.
  intros H1 N1 N2 N3 N4 -> E2 Ey2 -> E3 Ey3. subst y3. subst x3. subst y2. subst x2.
  match goal with |- third ?l' ?x12 _ ?x3 = third ?m' ?x1 _ ?x23 =>
    assert (Ex : l' * l' - x12 - x3 = m' * m' - x1 - x23) end.
  { field_simplify_eq [H1]; [ring [H1] | repeat split; auto].
    den N3. den4 x1 y1 N3 N4 N1. den N2. }
  unfold third. rewrite <- Ex. f_equal. clear Ex.
  field_simplify_eq [H1]; [ring [H1] | repeat split; auto].
  den N2. den N3. den4 x1 y1 N3 N4 N1.
Qed.

(** *** Associativity *)
Notation "P ++ Q" := (padd P Q) (right associativity, at level 60).
Ltac onc := repeat first [assumption | exact I | apply padd_on | apply popp_on].

Lemma finite_of P : P <> Inf -> exists x y, P = Aff x y.
Proof. destruct P as [|x y]; [contradiction|intros; now exists x, y]. Qed.
Lemma opp_sym P Q : P = popp Q -> Q = popp P.
Proof. intros ->. now rewrite popp_popp. Qed.
Lemma padd_cancel_l P Q : on_curve P -> on_curve Q -> popp P ++ (P ++ Q) = Q.
Proof. intros. rewrite padd_comm, (padd_comm P Q) by onc. now apply padd_cancel. Qed.
Lemma padd_cancel_l' P Q : on_curve P -> on_curve Q -> P ++ (popp P ++ Q) = Q.
Proof. intros. rewrite <- (popp_popp P) at 1. apply padd_cancel_l; onc. Qed.
Lemma padd_self_Inf P Q : on_curve P -> on_curve Q -> P ++ Q = P -> Q = Inf.
Proof. intros HP HQ E. rewrite <- (padd_cancel_l P Q), E, padd_comm by onc. apply padd_opp. Qed.

(** Sums of finite points in general position. *)
Lemma double_assoc P R : on_curve P -> on_curve R -> (P ++ P) ++ R = P ++ (P ++ R).
Proof.
  intros HP HR.
  destruct (pnt_dec P Inf) as [->|FP]; [reflexivity|]. destruct (pnt_dec R Inf) as [->|FR]; [now rewrite !add_Inf_r|].
  destruct (pnt_dec P (popp P)) as [E|N1].
  { rewrite E at 2. rewrite padd_opp. rewrite E at 1. symmetry. now apply padd_cancel_l. }
  destruct (pnt_dec R (popp P)) as [->|N2].
  { rewrite padd_opp, add_Inf_r. now apply padd_cancel. }
  destruct (pnt_dec R (popp (P ++ P))) as [->|N3].
  { rewrite padd_opp, popp_add, padd_cancel_l' by onc. now rewrite padd_opp. }
  destruct (pnt_dec (P ++ R) (popp P)) as [E|N4].
  { exfalso. apply N3. rewrite popp_add, <- E at 1 by onc. rewrite <- (padd_cancel_l P R) at 1 by onc. rewrite E. reflexivity. }
  destruct (pnt_dec R P) as [->|N5]; [apply padd_comm; onc|].
  assert (N6 : P ++ R <> P) by (intro E; apply FR; now apply (padd_self_Inf P)).
  destruct (finite_of _ FP) as (x1 & y1 & EP). destruct (finite_of _ FR) as (x3 & y3 & ER).
  assert (Ny : y1 <> 0) by (apply (neq_y x1); rewrite <- EP; exact N1).
  assert (H1 := HP). assert (H3 := HR). rewrite EP in H1. rewrite ER in H3.
  assert (NPR : x3 <> x1) by (apply (neq_x _ _ _ _ H3 H1); rewrite <- EP, <- ER; assumption).
  assert (HS : on_curve (P ++ P)) by onc. assert (HU : on_curve (P ++ R)) by onc.
  assert (ES := padd_tangent x1 y1 Ny). rewrite <- EP in ES. unfold third in ES. cbv zeta in ES.
  assert (EU : P ++ R = third ((y3 - y1) / (x3 - x1)) x1 y1 x3) by (rewrite EP, ER; apply padd_chord; congruence).
  unfold third in EU. cbv zeta in EU.
  match type of ES with _ = Aff ?x _ => remember x as x12 eqn:Ex12 end.
  match type of ES with _ = Aff _ ?y => remember y as y12 eqn:Ey12 end.
  match type of EU with _ = Aff ?x _ => remember x as x23 eqn:Ex23 end.
  match type of EU with _ = Aff _ ?y => remember y as y23 eqn:Ey23 end.
  rewrite ES in HS. rewrite EU in HU.
  assert (NU : x23 <> x1) by (apply (neq_x _ _ _ _ HU H1); rewrite <- EU, <- EP; assumption).
  assert (RHS : P ++ (P ++ R) = third ((y23 - y1) / (x23 - x1)) x1 y1 x23) by (rewrite EU, EP; apply padd_chord; congruence).
  rewrite RHS.
  destruct (pnt_dec R (P ++ P)) as [E|N7].
  - (* 2P + 2P *)
    assert (ER' : R = Aff x12 y12) by congruence. rewrite ER in ER'. injection ER' as -> ->.
    assert (Ny2 : y12 <> 0) by (apply (neq_y x12); rewrite <- ER; congruence).
    rewrite ES, ER. rewrite padd_tangent by exact Ny2.
    refine (spec3 x1 y1 _ x12 y12 _ x23 y23 H1 Ny Ny2 _ _ eq_refl Ex12 Ey12 eq_refl Ex23 Ey23); now apply sub_nz.
  - assert (NS : x3 <> x12) by (apply (neq_x _ _ _ _ H3 HS); rewrite <- ER, <- ES; assumption).
    rewrite ES, ER. rewrite padd_chord by congruence.
    refine (spec2 x1 y1 x3 y3 _ x12 y12 _ x23 y23 H1 H3 Ny _ _ _ eq_refl Ex12 Ey12 eq_refl Ex23 Ey23); now apply sub_nz.
Qed.

Lemma generic_assoc P Q R : on_curve P -> on_curve Q -> on_curve R ->
  P <> Inf -> Q <> Inf -> R <> Inf ->
  P <> Q -> Q <> popp P -> Q <> R -> R <> popp Q ->
  P ++ Q <> R -> R <> popp (P ++ Q) -> Q ++ R <> P -> Q ++ R <> popp P ->
  (P ++ Q) ++ R = P ++ (Q ++ R).
Proof.
  intros HP HQ HR FP FQ FR N1 N2 N3 N4 N5 N6 N7 N8.
  destruct (finite_of _ FP) as (x1 & y1 & EP). destruct (finite_of _ FQ) as (x2 & y2 & EQ). destruct (finite_of _ FR) as (x3 & y3 & ER).
  assert (H1 := HP). assert (H2 := HQ). assert (H3 := HR). rewrite EP in H1. rewrite EQ in H2. rewrite ER in H3.
  assert (X1 : x2 <> x1) by (apply (neq_x _ _ _ _ H2 H1); rewrite <- EP, <- EQ; congruence).
  assert (X2 : x3 <> x2) by (apply (neq_x _ _ _ _ H3 H2); rewrite <- ER, <- EQ; congruence).
  assert (HS : on_curve (P ++ Q)) by onc. assert (HU : on_curve (Q ++ R)) by onc.
  assert (ES : P ++ Q = third ((y2 - y1) / (x2 - x1)) x1 y1 x2) by (rewrite EP, EQ; apply padd_chord; congruence).
  assert (EU : Q ++ R = third ((y3 - y2) / (x3 - x2)) x2 y2 x3) by (rewrite EQ, ER; apply padd_chord; congruence).
  unfold third in ES, EU. cbv zeta in ES, EU.
  match type of ES with _ = Aff ?x _ => remember x as x12 eqn:Ex12 end.
  match type of ES with _ = Aff _ ?y => remember y as y12 eqn:Ey12 end.
  match type of EU with _ = Aff ?x _ => remember x as x23 eqn:Ex23 end.
  match type of EU with _ = Aff _ ?y => remember y as y23 eqn:Ey23 end.
  rewrite ES in HS. rewrite EU in HU.
  assert (X3 : x3 <> x12) by (apply (neq_x _ _ _ _ H3 HS); rewrite <- ER, <- ES; congruence).
  assert (X4 : x23 <> x1) by (apply (neq_x _ _ _ _ HU H1); rewrite <- EU, <- EP; congruence).
  rewrite ES, EU, EP, ER. rewrite !padd_chord by congruence.
  refine (spec1 x1 y1 x2 y2 x3 y3 _ x12 y12 _ x23 y23 H1 H2 H3 _ _ _ _ eq_refl Ex12 Ey12 eq_refl Ex23 Ey23); now apply sub_nz.
Qed.

Lemma double_assoc_r P Q : on_curve P -> on_curve Q -> (P ++ Q) ++ Q = P ++ (Q ++ Q).
Proof.
  intros HP HQ. rewrite (padd_comm (P ++ Q) Q), (padd_comm P Q), <- double_assoc by onc. apply padd_comm; onc.
Qed.
(* the triple (P, P + Q, Q) *)
Lemma middle_assoc P Q : on_curve P -> on_curve Q -> (P ++ (P ++ Q)) ++ Q = P ++ ((P ++ Q) ++ Q).
Proof. intros HP HQ. rewrite <- double_assoc, !double_assoc_r, <- double_assoc by onc. reflexivity. Qed.

Lemma sum_assoc P Q : on_curve P -> on_curve Q -> P <> Inf -> Q <> Inf -> P <> Q -> Q <> popp P ->
  (P ++ Q) ++ (P ++ Q) = P ++ (Q ++ (P ++ Q)).
Proof.
  intros HP HQ FP FQ N1 N2. set (S := P ++ Q). assert (HS : on_curve S) by (unfold S; onc).
  assert (E : (S ++ S) ++ popp Q = S ++ P).
  { rewrite double_assoc by onc. f_equal. unfold S. now apply padd_cancel. }
  assert (E' : S ++ S = (P ++ S) ++ Q).
  { rewrite (padd_comm P S), <- E by onc. rewrite <- (popp_popp Q) at 2. symmetry. apply padd_cancel; onc. }
  rewrite E'. rewrite (padd_comm Q S) by onc. unfold S. now apply middle_assoc.
Qed.

Lemma padd_assoc P Q R : on_curve P -> on_curve Q -> on_curve R -> (P ++ Q) ++ R = P ++ (Q ++ R).
Proof.
  intros HP HQ HR.
  destruct (pnt_dec P Inf) as [->|FP]; [reflexivity|].
  destruct (pnt_dec Q Inf) as [->|FQ]; [now rewrite add_Inf_r|].
  destruct (pnt_dec R Inf) as [->|FR]; [now rewrite !add_Inf_r|].
  destruct (pnt_dec Q (popp P)) as [->|N1]; [rewrite padd_opp; symmetry; now apply padd_cancel_l'|].
  destruct (pnt_dec R (popp Q)) as [->|N2]; [rewrite padd_opp, add_Inf_r; now apply padd_cancel|].
  destruct (pnt_dec R (popp (P ++ Q))) as [->|N3].
  { rewrite padd_opp, popp_add, (padd_comm (popp P)), padd_cancel_l' by onc. now rewrite padd_opp. }
  destruct (pnt_dec (Q ++ R) (popp P)) as [E|N4].
  { exfalso. apply N3. rewrite popp_add, <- E, padd_comm by onc. symmetry. now apply padd_cancel_l. }
  destruct (pnt_dec P Q) as [->|N5]; [now apply double_assoc|].
  destruct (pnt_dec Q R) as [->|N6].
  { rewrite padd_comm, (padd_comm P R), <- double_assoc by onc. apply padd_comm; onc. }
  destruct (pnt_dec (P ++ Q) R) as [<-|N7]; [now apply sum_assoc|].
  destruct (pnt_dec (Q ++ R) P) as [<-|N8].
  { rewrite (padd_comm Q R), (padd_comm _ R) by onc. assert (N6' : R <> Q) by congruence.
    assert (N2' : Q <> popp R) by (intro E; apply N2; now apply opp_sym).
    rewrite sum_assoc by assumption.
    rewrite (padd_comm (R ++ Q) Q) by onc. reflexivity. }
  now apply generic_assoc.
Qed.
End Curve.
