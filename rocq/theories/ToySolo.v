(** Orders to a single signer on the toy curve, for the example of PropertiesSolo.v. *)
From Coq Require Import String List.
From Verif Require Import Bytes BytesFacts Prims SpecBIP327 SpecFork SpecSolo Toy ToyData ToyFork.
Import ListNotations.
Local Open Scope Z_scope.

(** One seed and two messages: a plain signature, and one under the adaptor point 4*G. *)
Definition solo_orders : list (order_ Toy) :=
  [{| o_seed := zeros 32; o_msg := [x01]; o_point := None |}; {| o_seed := zeros 32; o_msg := [x02]; o_point := Some (pval (tpt 4)) |}].
Definition solo_program : asker (list (order_ Toy)) := Give solo_orders.
(** The parts of what is hashed, computed. *)
Definition solo_tag : bytes := Eval vm_compute in @tag_twice Toy "BIP0340/nonce".
Definition solo_x : bytes := Eval vm_compute in xbytes (point_mul (@pt_G Toy) (fz (sval sk_a))).
Definition solo_d : bytes := Eval vm_compute in bytes_from_int (let P := point_mul (@pt_G Toy) (fz (sval sk_a)) in if has_even_y P then fz (sval sk_a) else @n_ Toy - fz (sval sk_a)).
Definition solo_seed : bytes := Eval vm_compute in @tag_twice Toy "BIP0340/aux" ++ zeros 32.
(** What is hashed for a message when the seed has the digest [a]. *)
Definition solo_in (a m : bytes) : bytes := solo_tag ++ bytes_xor solo_d a ++ solo_x ++ m.
Lemma solo_in_eq a o : nonce_input sk_a a o = solo_in a (o_msg o).
Proof.
  unfold nonce_input, solo_in. cbv zeta.
  assert (E1 : @tag_twice Toy "BIP0340/nonce" = solo_tag) by (vm_compute; reflexivity).
  assert (E2 : xbytes (point_mul (@pt_G Toy) (fz (sval sk_a))) = solo_x) by (vm_compute; reflexivity).
  assert (E3 : bytes_from_int (if has_even_y (point_mul (@pt_G Toy) (fz (sval sk_a))) then fz (sval sk_a) else @n_ Toy - fz (sval sk_a)) = solo_d) by (vm_compute; reflexivity).
  rewrite E1, E2, E3. reflexivity.
Qed.
Lemma solo_seed_eq o : o_seed o = zeros 32 -> @seed_input Toy o = solo_seed.
Proof. intro H. unfold seed_input. rewrite H. vm_compute. reflexivity. Qed.
Definition solo_inputs : list bytes := solo_seed :: flat_map (fun a => [solo_in a [x01]; solo_in a [x02]]) (@residues Toy).
Lemma solo_within : orders_within 2 sk_a solo_inputs (@residues Toy) 0 solo_program.
Proof.
  split; [apply le_n|]. intros o Ho. split.
  - rewrite solo_seed_eq; [left; reflexivity|]. destruct Ho as [<- | [<- | []]]; reflexivity.
  - intros a Ha. rewrite solo_in_eq. right. apply in_flat_map. exists a. split; [exact Ha|]. destruct Ho as [<- | [<- | []]]; [left | right; left]; reflexivity.
Qed.
(** The world in which the nonces for the two messages have the digests [y] and [z]. *)
Definition solo_world (y z : Z) : list (bytes * bytes) :=
  (solo_seed, be_enc 32 4) :: flat_map (fun a => [(solo_in a [x01], be_enc 32 y); (solo_in a [x02], be_enc 32 z)]) (@residues Toy).
Lemma solo_few : forall d, In d (@residues Toy) -> (count (@same_up_to_sign Toy d) (@residues Toy) <= 3)%nat.
Proof.
  assert (E : forallb (fun d => Nat.leb (count (@same_up_to_sign Toy d) (@residues Toy)) 3) (@residues Toy) = true) by (vm_compute; reflexivity).
  rewrite forallb_forall in E. intros d Hd. apply PeanoNat.Nat.leb_le, E, Hd.
Qed.
