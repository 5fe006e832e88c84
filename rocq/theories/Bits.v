(** * Bits: bit-blasting support for fixed-width words. *)
From Coq Require Import ZArith List Lia Bool.
From Verif Require Import Base.
Import ListNotations.
Open Scope Z_scope.

Lemma testbit_mod_pow2 : forall x k n, 0 <= k -> 0 <= n ->
  Z.testbit (x mod 2 ^ k) n = (n <? k) && Z.testbit x n.
Proof.
  intros x k n Hk Hn. destruct (n <? k) eqn:E.
  - apply Z.ltb_lt in E. apply Z.mod_pow2_bits_low. lia.
  - apply Z.ltb_ge in E. apply Z.mod_pow2_bits_high. lia.
Qed.

Lemma testbit_u8 : forall x n, 0 <= n -> Z.testbit (u8 x) n = (n <? 8) && Z.testbit x n.
Proof. intros. unfold u8. change 256 with (2^8). apply testbit_mod_pow2; lia. Qed.
Lemma testbit_u16 : forall x n, 0 <= n -> Z.testbit (u16 x) n = (n <? 16) && Z.testbit x n.
Proof. intros. unfold u16. change 65536 with (2^16). apply testbit_mod_pow2; lia. Qed.
Lemma testbit_u64 : forall x n, 0 <= n -> Z.testbit (u64 x) n = (n <? 64) && Z.testbit x n.
Proof. intros. unfold u64. change 18446744073709551616 with (2^64). apply testbit_mod_pow2; lia. Qed.

(** A value below 2^k has no bit at or above k. *)
Lemma testbit_high : forall x k n, 0 <= x < 2 ^ k -> k <= n -> Z.testbit x n = false.
Proof.
  intros x k n Hx Hn.
  destruct (Z.ltb_spec k 0) as [Hk|Hk].
  { rewrite Z.pow_neg_r in Hx by lia. lia. }
  rewrite <- (Z.mod_small x (2^k)) by lia.
  apply Z.mod_pow2_bits_high. lia.
Qed.

(** Two values below 2^k with the same low k bits are equal. *)
Lemma bits_eq_below : forall k x y, 0 <= k -> 0 <= x < 2 ^ k -> 0 <= y < 2 ^ k ->
  (forall n, 0 <= n < k -> Z.testbit x n = Z.testbit y n) -> x = y.
Proof.
  intros k x y Hk Hx Hy H. apply Z.bits_inj'. intros n Hn.
  destruct (Z.ltb_spec n k) as [L|L].
  - apply H. lia.
  - rewrite (testbit_high x k n), (testbit_high y k n); auto.
Qed.

Lemma land_mask_mod : forall x k, 0 <= k -> Z.land x (2 ^ k - 1) = x mod 2 ^ k.
Proof.
  intros. rewrite <- Z.land_ones by lia. f_equal. rewrite Z.ones_equiv. lia.
Qed.

Lemma land_bound : forall x m k, 0 <= k -> 0 <= m < 2 ^ k -> 0 <= Z.land x m < 2 ^ k.
Proof.
  intros x m k Hk Hm. split; [apply Z.land_nonneg; lia|].
  assert (Z.land x m <= m); [|lia].
  destruct (Z.le_gt_cases (Z.land x m) m) as [L|L]; [exact L|exfalso].
  assert (E : Z.land (Z.land x m) m = Z.land x m).
  { rewrite <- Z.land_assoc, Z.land_diag. reflexivity. }
  assert (Hs : Z.ldiff (Z.land x m) m = 0).
  { apply Z.bits_inj'. intros n Hn. rewrite Z.ldiff_spec, Z.land_spec, Z.bits_0.
    destruct (Z.testbit x n), (Z.testbit m n); reflexivity. }
  apply Z.ldiff_le in Hs; [|lia]. lia.
Qed.

Lemma lor_bound : forall x y k, 0 <= k -> 0 <= x < 2 ^ k -> 0 <= y < 2 ^ k ->
  0 <= Z.lor x y < 2 ^ k.
Proof.
  intros x y k Hk Hx Hy. split; [apply Z.lor_nonneg; lia|].
  destruct (Z.eq_dec (Z.lor x y) 0) as [->|N]; [lia|].
  assert (0 < Z.lor x y).
  { assert (0 <= Z.lor x y) by (apply Z.lor_nonneg; lia). lia. }
  apply Z.log2_lt_pow2; auto.
  rewrite Z.log2_lor by lia. apply Z.max_lub_lt.
  - destruct (Z.eq_dec x 0) as [->|]; [|apply Z.log2_lt_pow2; lia].
    cbn. destruct (Z.eq_dec k 0) as [->|]; [|lia].
    change (2^0) with 1 in *. assert (y = 0) by lia. subst. cbn in H. lia.
  - destruct (Z.eq_dec y 0) as [->|]; [|apply Z.log2_lt_pow2; lia].
    cbn. destruct (Z.eq_dec k 0) as [->|]; [|lia].
    change (2^0) with 1 in *. assert (x = 0) by lia. subst. cbn in H. lia.
Qed.

(** [bitcases n k tac]: split [0 <= n < k] into its k cases. *)
Ltac closed_Z e :=
  match e with
  | context [Z.testbit] => fail 1
  | _ => let v := eval vm_compute in e in
         match v with
         | Z0 => constr:(v) | Zpos _ => constr:(v) | Zneg _ => constr:(v)
         end
  end.

Ltac simpl_idx :=
  repeat match goal with
  | |- context [Z.testbit ?x ?e] =>
      lazymatch e with
      | Z0 => fail | Zpos _ => fail | Zneg _ => fail | _ => idtac end;
      let v := closed_Z e in progress change e with v
  end.

Ltac simpl_bits :=
  repeat first
    [ rewrite Z.lor_spec | rewrite Z.land_spec | rewrite Z.lxor_spec
    | rewrite testbit_u8 by lia | rewrite testbit_u16 by lia | rewrite testbit_u64 by lia
    | rewrite Z.shiftl_spec by lia | rewrite Z.shiftr_spec by lia
    | rewrite Z.mul_pow2_bits by lia
    | progress simpl_idx
    | rewrite Z.testbit_neg_r by lia ].

Ltac const_bits :=
  repeat match goal with
  | |- context [Z.testbit (Zpos ?p) ?k] =>
      let v := eval vm_compute in (Z.testbit (Zpos p) k) in
      change (Z.testbit (Zpos p) k) with v
  | |- context [Z.testbit Z0 ?k] => change (Z.testbit Z0 k) with false
  | |- context [?a <? ?b] =>
      let v := eval vm_compute in (a <? b) in
      match v with true => idtac | false => idtac end;
      change (a <? b) with v
  end.

Ltac bool_simpl :=
  rewrite ?andb_true_r, ?andb_true_l, ?andb_false_r, ?andb_false_l,
    ?orb_true_r, ?orb_true_l, ?orb_false_r, ?orb_false_l.

Ltac enum n k :=
  lazymatch eval vm_compute in k with
  | 0 => exfalso; lia
  | _ => let k' := eval vm_compute in (k - 1) in
         let E := fresh "E" in
         destruct (Z.eq_dec n k') as [E|E];
         [ subst n | enum n k' ]
  end.
