(** Programs on the toy curve that ask for the digest of their list, for the examples of PropertiesCollision.v. *)
From Coq Require Import List.
From Verif Require Import Bytes BytesFacts Prims SpecBIP327 KeyAgg SpecFork SpecCollision Toy ToyData ToyFork.
Import ListNotations.
Local Open Scope Z_scope.

(** The list of 3*G and 5*G. *)
Definition col_list : bytes := Eval vm_compute in @list_input Toy [tpt 3; tpt 5].
(** It knows both secrets, asks for the digest of the list, the coefficient and the challenge, and signs. *)
Definition col_forger : asker (group_forgery Toy) :=
  Ask col_list (fun L =>
  Ask (@coefficient_input Toy L (tpt 3)) (fun a =>
  Ask (toy_challenge a) (fun d =>
  Give (toy_group (match forged_group (toy_group toy_rx) (toy_hash a) with
    | Some c => toy_forgery (((if parity_acc c then -1 else 1) * (int_from_bytes a * 3 + 5) + fz (tweak_acc c)) mod 31) d
    | None => [] end))))).
(** The questions it may ask. *)
Definition col_inputs : list bytes := Eval vm_compute in
  [col_list; @coefficient_input Toy (be_enc 32 3) (tpt 3); @coefficient_input Toy (be_enc 32 7) (tpt 3); toy_challenge (be_enc 32 3); toy_challenge (be_enc 32 7)].
Lemma col_within : lists_within col_inputs (map (be_enc 32) [3; 7]) 3 col_forger.
Proof.
  split; [left; reflexivity|]. intros L HL.
  split; [destruct HL as [<- | [<- | []]]; [right; left; vm_compute; reflexivity | do 2 right; left; vm_compute; reflexivity]|]. intros a Ha.
  split; [destruct Ha as [<- | [<- | []]]; [do 3 right; left; vm_compute; reflexivity | do 4 right; left; vm_compute; reflexivity]|]. intros d Hd.
  cbn [asks_within g_keys toy_group]. left. vm_compute. reflexivity.
Qed.

(** The list of 5*G and 3*G. *)
Definition col_second_list : bytes := Eval vm_compute in @list_input Toy [tpt 5; tpt 3].
(** It asks for the digest of the list and the coefficient of 5*G.  When that is 6 or 30, it asks for the challenge and signs. *)
Definition col_second_forger : asker (group_forgery Toy) :=
  Ask col_second_list (fun L =>
  Ask (@coefficient_input Toy L (tpt 5)) (fun a =>
  if existsb (Z.eqb (int_from_bytes a)) [6; 30] then
    Ask (toy_second_challenge a) (fun d =>
    Give (toy_second_group (match forged_group (toy_second_group toy_rx) (toy_second_hash a) with
      | Some c => toy_forgery (((if parity_acc c then -1 else 1) * (int_from_bytes a * 5 + 3) + fz (tweak_acc c)) mod 31) d
      | None => [] end)))
  else Give (toy_second_group []))).
(** The questions it may ask. *)
Definition col_second_inputs : list bytes :=
  col_second_list :: skipn 1 toy_second_inputs ++ map (fun L => @coefficient_input Toy L (tpt 5)) (@residues Toy).
Lemma col_second_within : lists_within col_second_inputs (@residues Toy) 3 col_second_forger.
Proof.
  split; [left; reflexivity|]. intros L HL.
  split; [right; apply in_or_app; right; apply (in_map (fun L => @coefficient_input Toy L (tpt 5))), HL|]. intros a Ha.
  assert (E : forallb (fun a => if existsb (Z.eqb (int_from_bytes a)) [6; 30] then existsb (bytes_eqb (toy_second_challenge a)) (skipn 1 toy_second_inputs) else true) (@residues Toy) = true)
    by (vm_compute; reflexivity).
  rewrite forallb_forall in E. specialize (E a Ha). cbv beta in E. destruct (existsb (Z.eqb (int_from_bytes a)) [6; 30]).
  - split; [right; apply in_or_app; left|].
    + apply existsb_exists in E as (x & Hx & E). apply bytes_eqb_eq in E as ->. exact Hx.
    + intros d Hd. left. vm_compute. reflexivity.
  - left. vm_compute. reflexivity.
Qed.
