(** * KeccakX4Ok: each lane of the four-way permutation of the AVX2 build is the permutation of fips202.c. *)
From Coq Require Import ZArith List Lia Bool.
From Verif Require Import Base DilArith DilNtt Keccak KeccakSpec KeccakPerm KeccakSponge KeccakX4.
Import ListNotations.
Open Scope Z_scope.

(** ** Symbolic values of a lane *)
Inductive ex :=
| V (n : nat) | Cc (n : nat) | Ms (b : bool) | Ze
| Xr (a b : ex) | An (a b : ex) | Ro (k : nat) (a : ex) | Sl (k : nat) (a : ex) | Sr (k : nat) (a : ex).
Fixpoint den (env : nat -> Z) (rc : list Z) (j : nat) (e : ex) : Z :=
  match e with
  | V n => env n
  | Cc n => nth n rc 0
  | Ms b => nth j (if b then rho8 else rho56) 0
  | Ze => 0
  | Xr a b => Z.lxor (den env rc j a) (den env rc j b)
  | An a b => Z.land (not64 (den env rc j a)) (den env rc j b)
  | Ro k a => ROL (den env rc j a) (Z.of_nat k mod 64)
  | Sl k a => u64 (Z.shiftl (den env rc j a) (Z.of_nat k))
  | Sr k a => Z.shiftr (den env rc j a) (Z.of_nat k)
  end.
Definition tag (e : ex) : nat := match e with V _ => 0 | Cc _ => 1 | Ms _ => 2 | Ze => 3 | Xr _ _ => 4 | An _ _ => 5 | Ro _ _ => 6 | Sl _ _ => 7 | Sr _ _ => 8 end.
Definition lex (c d : comparison) : comparison := match c with Eq => d | _ => c end.
Fixpoint cmp (a b : ex) : comparison :=
  match a, b with
  | V n, V m => Nat.compare n m
  | Cc n, Cc m => Nat.compare n m
  | Xr a1 a2, Xr b1 b2 => lex (cmp a1 b1) (cmp a2 b2)
  | An a1 a2, An b1 b2 => lex (cmp a1 b1) (cmp a2 b2)
  | Ro k a, Ro l b => lex (Nat.compare k l) (cmp a b)
  | Sl k a, Sl l b => lex (Nat.compare k l) (cmp a b)
  | Sr k a, Sr l b => lex (Nat.compare k l) (cmp a b)
  | _, _ => Nat.compare (tag a) (tag b)
  end.
Fixpoint same (a b : ex) : bool :=
  match a, b with
  | V n, V m => (n =? m)%nat
  | Cc n, Cc m => (n =? m)%nat
  | Ms x, Ms y => Bool.eqb x y
  | Ze, Ze => true
  | Xr a1 a2, Xr b1 b2 => same a1 b1 && same a2 b2
  | An a1 a2, An b1 b2 => same a1 b1 && same a2 b2
  | Ro k a, Ro l b => (k =? l)%nat && same a b
  | Sl k a, Sl l b => (k =? l)%nat && same a b
  | Sr k a, Sr l b => (k =? l)%nat && same a b
  | _, _ => false
  end.
Lemma same_eq : forall a b, same a b = true -> a = b.
Proof.
  induction a; intros [] H; cbn [same] in H; try discriminate; try reflexivity;
    repeat match goal with H : andb _ _ = true |- _ => apply andb_prop in H; destruct H end;
    repeat match goal with H : (_ =? _)%nat = true |- _ => apply Nat.eqb_eq in H; subst end;
    try (apply eqb_prop in H; subst); f_equal; auto.
Qed.
Fixpoint leaves (e : ex) : list ex := match e with Xr a b => leaves a ++ leaves b | Ze => [] | _ => [e] end.
Definition xsum (l : list ex) : ex := fold_right Xr Ze l.
Fixpoint insert (x : ex) (l : list ex) : list ex :=
  match l with [] => [x] | y :: r => match cmp x y with Gt => y :: insert x r | _ => x :: l end end.
Definition s_xor (a b : ex) : ex := xsum (fold_right insert [] (leaves a ++ leaves b)).
Fixpoint norm (e : ex) : ex :=
  match e with
  | Xr a b => s_xor (norm a) (norm b)
  | An a b => An (norm a) (norm b)
  | Ro k a => Ro k (norm a)
  | Sl k a => Sl k (norm a)
  | Sr k a => Sr k (norm a)
  | _ => e
  end.
Definition s_or (a b : ex) : crun ex :=
  match a, b with
  | Sr k x, Sl l y => if ((k + l =? 64) && (0 <? l) && (l <? 64))%nat%bool && same x y then CRet (Ro l x) else CUB
  | _, _ => CUB
  end.
Definition s_shuf (a b : ex) : crun ex :=
  match b with Ms t => CRet (Ro (if t then 8 else 56) a) | _ => CUB end.

(** ** Symbolic execution *)
Record smach := Smach { sregs : list ex; smem : list ex }.
Definition sreg (s : smach) (n : nat) : ex := nth n (sregs s) Ze.
Definition ssetr (s : smach) (n : nat) (v : ex) : smach := Smach (put (sregs s) n v) (smem s).
Definition sfetch (s : smach) (o : opnd) : crun ex :=
  match o with
  | R n => CRet (sreg s n)
  | M off => do i <- addr off ;; CRet (nth i (smem s) Ze)
  | T8 => CRet (Ms true)
  | T56 => CRet (Ms false)
  end.
Definition sstep (nrc : nat) (s : smach) (i : ins) : crun smach :=
  match i with
  | Ld o d => do v <- sfetch s o ;; CRet (ssetr s d v)
  | St a off => do i <- addr off ;; CRet (Smach (sregs s) (put (smem s) i (sreg s a)))
  | Xor o a d => do v <- sfetch s o ;; CRet (ssetr s d (s_xor (sreg s a) v))
  | Or o a d => do v <- sfetch s o ;; do w <- s_or (sreg s a) v ;; CRet (ssetr s d w)
  | Andn o a d => do v <- sfetch s o ;; CRet (ssetr s d (An (sreg s a) v))
  | Shufb o a d => do v <- sfetch s o ;; do w <- s_shuf (sreg s a) v ;; CRet (ssetr s d w)
  | Sll k a d => CRet (ssetr s d (Sl k (sreg s a)))
  | Srl k a d => CRet (ssetr s d (Sr k (sreg s a)))
  | Bcast off d => if ((off mod 8 =? 0) && (off / 8 <? nrc))%nat%bool then CRet (ssetr s d (Cc (off / 8))) else CUB
  end.
Fixpoint ssteps (nrc : nat) (l : list ins) (s : smach) : crun smach :=
  match l with [] => CRet s | i :: l' => do s' <- sstep nrc s i ;; ssteps nrc l' s' end.

(** ** Lists *)
Lemma put_length : forall A (l : list A) i v, length (put l i v) = length l.
Proof. induction l as [|h t IH]; intros [|i] v; cbn [put length]; try reflexivity. rewrite IH. reflexivity. Qed.
Lemma nth_put : forall A (l : list A) i v j d, (i < length l)%nat -> nth j (put l i v) d = if (j =? i)%nat then v else nth j l d.
Proof.
  induction l as [|h t IH]; intros i v j d H; [cbn in H; lia|]. destruct i as [|i], j as [|j]; try reflexivity.
  cbn [put nth]. rewrite IH by (cbn in H; lia). reflexivity.
Qed.
Lemma put_out : forall A (l : list A) i v, (length l <= i)%nat -> put l i v = l.
Proof. induction l as [|h t IH]; intros [|i] v H; cbn in *; try reflexivity; [lia|]. rewrite IH by lia. reflexivity. Qed.
Lemma put_Forall : forall A (P : A -> Prop) l i v, Forall P l -> P v -> Forall P (put l i v).
Proof. induction l as [|h t IH]; intros [|i] v F H; cbn [put]; try constructor; inversion F; subst; auto. Qed.

(** ** Sums *)
Section Den.
Variable env : nat -> Z.
Variable rc : list Z.
Variable j : nat.
Hypothesis env_w : forall n, w64 (env n).
Hypothesis rc_w64 : Forall w64 rc.
Local Notation dn := (den env rc j).
Lemma w64_0 : w64 0. Proof. unfold w64. lia. Qed.
Lemma nth_w64 : forall (l : list Z) n, Forall w64 l -> w64 (nth n l 0).
Proof. intros l n F. rewrite Forall_forall in F. destruct (nth_in_or_default n l 0) as [H | H]; [apply F, H|rewrite H; apply w64_0]. Qed.
Lemma rho_w : forall b : bool, Forall w64 (if b then rho8 else rho56).
Proof. intros []; unfold rho8, rho56; apply Forall_map; repeat constructor; apply load64_w. Qed.
Lemma den_w : forall e, w64 (dn e).
Proof.
  induction e; cbn [den].
  - apply env_w.
  - apply nth_w64, rc_w64.
  - apply nth_w64, rho_w.
  - apply w64_0.
  - apply lxor_w; assumption.
  - apply land_w; assumption.
  - apply ROL_w; [|assumption]. pose proof (Z.mod_pos_bound (Z.of_nat k) 64). lia.
  - apply u64_w.
  - apply shiftr_w; [lia|assumption].
Qed.
Definition vsum (l : list ex) : Z := fold_right (fun (e : ex) (z : Z) => Z.lxor (dn e) z) 0 l.
Lemma den_xsum : forall l, dn (xsum l) = vsum l.
Proof. induction l as [|x l IH]; [reflexivity|]. cbn [xsum fold_right den vsum]. fold (xsum l). rewrite IH. reflexivity. Qed.
Lemma vsum_app : forall a b, vsum (a ++ b) = Z.lxor (vsum a) (vsum b).
Proof. induction a as [|x a IH]; intro b; [reflexivity|]. cbn [app vsum fold_right]. fold (vsum (a ++ b)) (vsum a). rewrite IH, Z.lxor_assoc. reflexivity. Qed.
Lemma vsum_leaves : forall e, vsum (leaves e) = dn e.
Proof.
  induction e; cbn [leaves]; try (cbn [vsum fold_right]; apply Z.lxor_0_r); [reflexivity|].
  rewrite vsum_app, IHe1, IHe2. reflexivity.
Qed.
Lemma vsum_insert : forall x l, vsum (insert x l) = Z.lxor (dn x) (vsum l).
Proof.
  intros x l. induction l as [|y l IH]; [reflexivity|]. cbn [insert]. destruct (cmp x y); try reflexivity.
  cbn [vsum fold_right]. fold (vsum (insert x l)) (vsum l). rewrite IH, <- !Z.lxor_assoc, (Z.lxor_comm (dn x)). reflexivity.
Qed.
Lemma vsum_sort : forall l, vsum (fold_right insert [] l) = vsum l.
Proof. induction l as [|x l IH]; [reflexivity|]. cbn [fold_right]. rewrite vsum_insert, IH. reflexivity. Qed.
Lemma den_xor : forall a b, dn (s_xor a b) = Z.lxor (dn a) (dn b).
Proof. intros. unfold s_xor. rewrite den_xsum, vsum_sort, vsum_app, !vsum_leaves. reflexivity. Qed.
Lemma den_norm : forall e, dn (norm e) = dn e.
Proof. induction e; cbn [norm den]; try reflexivity; try (rewrite den_xor); rewrite ?IHe, ?IHe1, ?IHe2; reflexivity. Qed.
End Den.

(** ** Rotations *)
Lemma lor_ROL : forall a n, w64 a -> 0 < n < 64 -> Z.lor (Z.shiftr a (64 - n)) (u64 (Z.shiftl a n)) = ROL a n.
Proof.
  intros a n W N. unfold ROL. rewrite Z.lor_comm. symmetry. apply Z.lxor_lor. apply Z.bits_inj'. intros k K. rewrite Z.land_spec, Z.bits_0.
  unfold u64. change 18446744073709551616 with (2 ^ 64) at 1.
  destruct (Z.ltb_spec k 64) as [L | L]; [|rewrite (Z.mod_pow2_bits_high _ 64) by lia; reflexivity].
  rewrite (Z.mod_pow2_bits_low _ 64) by lia. rewrite Z.shiftl_spec, Z.shiftr_spec by lia.
  destruct (Z.ltb_spec k n) as [L2 | L2]; [rewrite Z.testbit_neg_r by lia; reflexivity|].
  apply andb_false_intro2. unfold w64 in W. rewrite <- (Z.mod_small a (2 ^ 64)) by lia. apply Z.mod_pow2_bits_high. lia.
Qed.
Lemma w64_inj : forall a b, w64 a -> w64 b -> (forall k, (k < 64)%nat -> Z.testbit a (Z.of_nat k) = Z.testbit b (Z.of_nat k)) -> a = b.
Proof.
  intros a b A B H. apply Z.bits_inj'. intros k K. destruct (Z.ltb_spec k 64) as [L | L].
  - rewrite <- (Z2Nat.id k) by lia. apply H. lia.
  - unfold w64 in *. rewrite <- (Z.mod_small a (2 ^ 64)), <- (Z.mod_small b (2 ^ 64)) by lia. rewrite !Z.mod_pow2_bits_high by lia. reflexivity.
Qed.
Lemma u8_bit : forall a i k, (k < 8)%nat -> Z.testbit (u8 (Z.shiftr a (8 * Z.of_nat i))) (Z.of_nat k) = Z.testbit a (Z.of_nat (8 * i + k)).
Proof.
  intros a i k K. unfold u8. change 256 with (2 ^ 8) at 1. rewrite Z.mod_pow2_bits_low by lia. rewrite Z.shiftr_spec by lia. f_equal. lia.
Qed.
Lemma load_rot : forall a l o, w64 a -> (0 < o < 8)%nat ->
  l = map (fun i => u8 (Z.shiftr a (8 * Z.of_nat ((i + (8 - o)) mod 8)))) (seq 0 8) ->
  load64 l = ROL a (8 * Z.of_nat o).
Proof.
  intros a l o W O ->. replace (8 * Z.of_nat o) with (Z.of_nat (8 * o)) by lia.
  apply w64_inj; [apply load64_w|apply ROL_w; [lia|exact W]|]. intros k K.
  assert (D : (k / 8 < 8)%nat) by (apply Nat.div_lt_upper_bound; lia). assert (M := Nat.mod_upper_bound k 8).
  rewrite load64_bit; [|apply Forall_map, Forall_forall; intros; unfold is_byte, u8; apply Z.mod_pos_bound; lia|exact K].
  rewrite ROL_bit by (lia || exact W).
  set (f := fun i => u8 (Z.shiftr a (8 * Z.of_nat ((i + (8 - o)) mod 8)))).
  rewrite (nth_indep _ 0 (f 0%nat)) by (rewrite map_length, seq_length; lia). rewrite map_nth, seq_nth by lia. unfold f. rewrite u8_bit by lia.
  f_equal. f_equal. assert (E : (k = 8 * (k / 8) + k mod 8)%nat) by (apply Nat.div_mod; lia).
  set (q := (k / 8)%nat) in *. set (m := (k mod 8)%nat) in *. clearbody q m. subst k.
  rewrite Nat.add_0_l.
  assert (C : (q + (8 - o) < 8 \/ 8 <= q + (8 - o) < 16)%nat) by lia. destruct C as [C | C].
  - rewrite (Nat.mod_small (q + (8 - o))) by exact C. rewrite (Nat.mod_small (8 * q + m + 64 - 8 * o)) by lia. lia.
  - replace (q + (8 - o))%nat with ((q - o) + 1 * 8)%nat by lia. rewrite Nat.mod_add, (Nat.mod_small (q - o)) by lia.
    replace (8 * q + m + 64 - 8 * o)%nat with ((8 * (q - o) + m) + 1 * 64)%nat by lia. rewrite Nat.mod_add, Nat.mod_small by lia. lia.
Qed.

(** ** The byte shuffles rotate *)
Local Opaque load64.
Lemma pshuf8_bytes : forall v b0 b1 b2 b3 b4 b5 b6 b7 b8 b9 b10 b11 b12 b13 b14 b15 b16 b17 b18 b19 b20 b21 b22 b23 b24 b25 b26 b27 b28 b29 b30 b31, flat_map store64 v = [b0; b1; b2; b3; b4; b5; b6; b7; b8; b9; b10; b11; b12; b13; b14; b15; b16; b17; b18; b19; b20; b21; b22; b23; b24; b25; b26; b27; b28; b29; b30; b31] ->
  pshufb v rho8 = [load64 [b7; b0; b1; b2; b3; b4; b5; b6];
    load64 [b15; b8; b9; b10; b11; b12; b13; b14];
    load64 [b23; b16; b17; b18; b19; b20; b21; b22];
    load64 [b31; b24; b25; b26; b27; b28; b29; b30]].
Proof.
  intros v b0 b1 b2 b3 b4 b5 b6 b7 b8 b9 b10 b11 b12 b13 b14 b15 b16 b17 b18 b19 b20 b21 b22 b23 b24 b25 b26 b27 b28 b29 b30 b31 H. unfold pshufb. rewrite H. clear H.
  assert (Em : flat_map store64 rho8 = [7; 0; 1; 2; 3; 4; 5; 6; 15; 8; 9; 10; 11; 12; 13; 14; 7; 0; 1; 2; 3; 4; 5; 6; 15; 8; 9; 10; 11; 12; 13; 14]) by (vm_compute; reflexivity). rewrite Em. clear Em. reflexivity.
Qed.
Lemma pshuf56_bytes : forall v b0 b1 b2 b3 b4 b5 b6 b7 b8 b9 b10 b11 b12 b13 b14 b15 b16 b17 b18 b19 b20 b21 b22 b23 b24 b25 b26 b27 b28 b29 b30 b31, flat_map store64 v = [b0; b1; b2; b3; b4; b5; b6; b7; b8; b9; b10; b11; b12; b13; b14; b15; b16; b17; b18; b19; b20; b21; b22; b23; b24; b25; b26; b27; b28; b29; b30; b31] ->
  pshufb v rho56 = [load64 [b1; b2; b3; b4; b5; b6; b7; b0];
    load64 [b9; b10; b11; b12; b13; b14; b15; b8];
    load64 [b17; b18; b19; b20; b21; b22; b23; b16];
    load64 [b25; b26; b27; b28; b29; b30; b31; b24]].
Proof.
  intros v b0 b1 b2 b3 b4 b5 b6 b7 b8 b9 b10 b11 b12 b13 b14 b15 b16 b17 b18 b19 b20 b21 b22 b23 b24 b25 b26 b27 b28 b29 b30 b31 H. unfold pshufb. rewrite H. clear H.
  assert (Em : flat_map store64 rho56 = [1; 2; 3; 4; 5; 6; 7; 0; 9; 10; 11; 12; 13; 14; 15; 8; 1; 2; 3; 4; 5; 6; 7; 0; 9; 10; 11; 12; 13; 14; 15; 8]) by (vm_compute; reflexivity). rewrite Em. clear Em. reflexivity.
Qed.
Lemma pshuf8_ok : forall v, length v = 4%nat -> Forall w64 v -> pshufb v rho8 = map (fun x => ROL x 8) v.
Proof.
  intros v L F. destruct v as [|x0 [|x1 [|x2 [|x3 [|]]]]]; try discriminate L. inversion_clear F as [|? ? W0 F1]. inversion_clear F1 as [|? ? W1 F2].
  inversion_clear F2 as [|? ? W2 F3]. inversion_clear F3 as [|? ? W3 _]. erewrite pshuf8_bytes by (unfold store64; cbn [flat_map seq map app]; reflexivity).
  cbn [map]. change 8 with (8 * Z.of_nat 1).
  repeat (apply f_equal2; [apply (load_rot _ _ 1); [assumption|lia|reflexivity]|]). reflexivity.
Qed.
Lemma pshuf56_ok : forall v, length v = 4%nat -> Forall w64 v -> pshufb v rho56 = map (fun x => ROL x 56) v.
Proof.
  intros v L F. destruct v as [|x0 [|x1 [|x2 [|x3 [|]]]]]; try discriminate L. inversion_clear F as [|? ? W0 F1]. inversion_clear F1 as [|? ? W1 F2].
  inversion_clear F2 as [|? ? W2 F3]. inversion_clear F3 as [|? ? W3 _]. erewrite pshuf56_bytes by (unfold store64; cbn [flat_map seq map app]; reflexivity).
  cbn [map]. change 56 with (8 * Z.of_nat 7).
  repeat (apply f_equal2; [apply (load_rot _ _ 7); [assumption|lia|reflexivity]|]). reflexivity.
Qed.

(** ** Soundness *)
Definition okv (v : vec) : Prop := length v = 4%nat /\ Forall w64 v.
Definition okm (s : mach) : Prop := length (yregs s) = 16%nat /\ length (ymem s) = 25%nat /\ Forall okv (yregs s) /\ Forall okv (ymem s).
(** The four lanes of a vector are the four values of an expression. *)
Definition vals (env : nat -> nat -> Z) (rc : list Z) (v : vec) (e : ex) : Prop := forall j, (j < 4)%nat -> nth j v 0 = den (env j) rc j e.
Definition sim (env : nat -> nat -> Z) (rc : list Z) (s : mach) (t : smach) : Prop :=
  length (sregs t) = 16%nat /\ length (smem t) = 25%nat /\
  (forall n, vals env rc (reg s n) (sreg t n)) /\
  (forall i, vals env rc (nth i (ymem s) zero4) (nth i (smem t) Ze)).
Lemma zero4_ok : okv zero4. Proof. split; [reflexivity|]. repeat constructor; lia. Qed.
Lemma nth_okv : forall l n, Forall okv l -> okv (nth n l zero4).
Proof. intros l n F. rewrite Forall_forall in F. destruct (nth_in_or_default n l zero4) as [H | H]; [apply F, H|rewrite H; apply zero4_ok]. Qed.
Lemma nth_map2_4 : forall (f : Z -> Z -> Z) v w j, length v = 4%nat -> length w = 4%nat -> (j < 4)%nat ->
  nth j (map2 f v w) 0 = f (nth j v 0) (nth j w 0).
Proof.
  intros f v w j Lv Lw J. destruct v as [|a [|b [|c [|d [|]]]]]; try discriminate Lv. destruct w as [|a' [|b' [|c' [|d' [|]]]]]; try discriminate Lw.
  do 4 (destruct j as [|j]; [reflexivity|]). lia.
Qed.
Lemma map2_okv : forall (f : Z -> Z -> Z) v w, (forall x y, w64 x -> w64 y -> w64 (f x y)) -> okv v -> okv w -> okv (map2 f v w).
Proof.
  intros f v w H [Lv Fv] [Lw Fw]. split; [rewrite map2_length, Lv, Lw; reflexivity|]. clear Lv Lw.
  revert w Fw. induction Fv as [|x v X Fv IH]; intros w Fw; [constructor|]. destruct Fw as [|y w Y Fw]; [constructor|].
  cbn [map2]. constructor; [apply H; assumption|apply IH, Fw].
Qed.
Lemma nth_map_4 : forall (f : Z -> Z) v j, length v = 4%nat -> (j < 4)%nat -> nth j (map f v) 0 = f (nth j v 0).
Proof. intros f v j L J. rewrite (nth_indep _ 0 (f 0)) by (rewrite map_length; lia). apply map_nth. Qed.
Lemma map_okv : forall (f : Z -> Z) v, (forall x, w64 x -> w64 (f x)) -> okv v -> okv (map f v).
Proof. intros f v H [L F]. split; [rewrite map_length; exact L|]. apply Forall_map. eapply Forall_impl; [exact H|exact F]. Qed.
Lemma rho_ok : forall b : bool, okv (if b then rho8 else rho56).
Proof. intro b. split; [destruct b; reflexivity|apply rho_w]. Qed.
Lemma repeat_okv : forall x, w64 x -> okv (repeat x 4).
Proof. intros x X. split; [reflexivity|]. repeat constructor; exact (proj1 X) || exact (proj2 X). Qed.
Lemma fetch_ok : forall env rc s t o e, okm s -> sim env rc s t -> sfetch t o = CRet e ->
  exists v, fetch s o = CRet v /\ okv v /\ vals env rc v e.
Proof.
  intros env rc s t o e (O1 & O2 & O3 & O4) (S1 & S2 & S3 & S4) H. destruct o as [n | off | |]; cbn [sfetch fetch] in *.
  - injection H as <-. eexists. split; [reflexivity|]. split; [apply nth_okv, O3|apply S3].
  - destruct (addr off) as [i| |]; try discriminate H. cbn [cbind] in *. injection H as <-. eexists. split; [reflexivity|]. split; [apply nth_okv, O4|apply S4].
  - injection H as <-. eexists. split; [reflexivity|]. split; [apply (rho_ok true)|intros j J; reflexivity].
  - injection H as <-. eexists. split; [reflexivity|]. split; [apply (rho_ok false)|intros j J; reflexivity].
Qed.
Lemma setr_ok : forall env rc s t d v e, okm s -> sim env rc s t -> okv v -> vals env rc v e ->
  okm (setr s d v) /\ sim env rc (setr s d v) (ssetr t d e).
Proof.
  intros env rc s t d v e (O1 & O2 & O3 & O4) (S1 & S2 & S3 & S4) Ov E. split.
  - unfold okm, setr; cbn [yregs ymem]. rewrite put_length. split; [exact O1|]. split; [exact O2|]. split; [apply put_Forall; assumption|exact O4].
  - unfold sim, setr, ssetr, reg, sreg; cbn [yregs ymem sregs smem]. rewrite put_length. split; [exact S1|]. split; [exact S2|]. split; [|exact S4].
    intro n. destruct (Nat.ltb_spec d 16) as [D | D].
    + rewrite !nth_put by lia. destruct (n =? d)%nat; [exact E|apply S3].
    + rewrite !put_out by lia. apply S3.
Qed.
Lemma s_or_ok : forall env rc j a b e, (forall n, w64 (env n)) -> Forall w64 rc -> s_or a b = CRet e ->
  Z.lor (den env rc j a) (den env rc j b) = den env rc j e.
Proof.
  intros env rc j a b e W Wr H. destruct a; cbn [s_or] in H; try discriminate H. destruct b; cbn [s_or] in H; try discriminate H.
  match type of H with (if ?c then _ else _) = _ => destruct c eqn:C; [|discriminate H] end. injection H as <-.
  apply andb_prop in C. destruct C as [C C4]. apply andb_prop in C. destruct C as [C C3]. apply andb_prop in C. destruct C as [C1 C2].
  apply same_eq in C4. subst b. apply Nat.eqb_eq in C1. apply Nat.ltb_lt in C2, C3. cbn [den].
  assert (D := den_w env rc j W Wr a). set (x := den env rc j a) in *. clearbody x. rewrite (Z.mod_small (Z.of_nat k0)) by lia.
  replace (Z.of_nat k) with (64 - Z.of_nat k0) by lia. apply lor_ROL; [exact D|lia].
Qed.
Lemma vec_ext : forall v w, length v = 4%nat -> length w = 4%nat -> (forall j, (j < 4)%nat -> nth j v 0 = nth j w 0) -> v = w.
Proof. intros v w L L' H. apply (nth_ext _ _ 0 0); [congruence|]. intros n N. apply H. lia. Qed.
Lemma s_shuf_ok : forall env rc a b e v m, okv v -> okv m -> vals env rc m b -> vals env rc v a -> s_shuf a b = CRet e ->
  vals env rc (pshufb v m) e /\ okv (pshufb v m).
Proof.
  intros env rc a b e v m [L F] [Lm Fm] Vb Va H. destruct b; cbn [s_shuf] in H; try discriminate H. injection H as <-.
  assert (M : m = if b then rho8 else rho56) by (apply vec_ext; [exact Lm|destruct b; reflexivity|exact Vb]). subst m. clear Vb Lm Fm. destruct b.
  - rewrite pshuf8_ok by assumption. split; [intros j J; rewrite nth_map_4 by assumption; cbn [den]; rewrite (Va j J); reflexivity|].
    apply map_okv; [|split; assumption]. intros x X. apply ROL_w; [lia|exact X].
  - rewrite pshuf56_ok by assumption. split; [intros j J; rewrite nth_map_4 by assumption; cbn [den]; rewrite (Va j J); reflexivity|].
    apply map_okv; [|split; assumption]. intros x X. apply ROL_w; [lia|exact X].
Qed.
Lemma bin_vals : forall env rc (f : Z -> Z -> Z) v w a b e, okv v -> okv w -> vals env rc v a -> vals env rc w b ->
  (forall j, f (den (env j) rc j a) (den (env j) rc j b) = den (env j) rc j e) -> vals env rc (map2 f v w) e.
Proof. intros env rc f v w a b e [Lv _] [Lw _] A B H j J. rewrite nth_map2_4 by assumption. rewrite (A j J), (B j J). apply H. Qed.
Lemma un_vals : forall env rc (f : Z -> Z) v a e, okv v -> vals env rc v a ->
  (forall j, f (den (env j) rc j a) = den (env j) rc j e) -> vals env rc (map f v) e.
Proof. intros env rc f v a e [Lv _] A H j J. rewrite nth_map_4 by assumption. rewrite (A j J). apply H. Qed.
Lemma sstep_ok : forall env rc nrc s t i t', (forall j n, w64 (env j n)) -> Forall w64 rc -> (nrc <= length rc)%nat -> okm s -> sim env rc s t ->
  sstep nrc t i = CRet t' -> exists s', step rc s i = CRet s' /\ okm s' /\ sim env rc s' t'.
Proof.
  intros env rc nrc s t i t' W Wr Ln O S H.
  assert (Or : forall n, okv (reg s n)) by (intro n; apply nth_okv; apply O).
  assert (Sr : forall n, vals env rc (reg s n) (sreg t n)) by (apply S).
  assert (F : forall o e, sfetch t o = CRet e -> exists v, fetch s o = CRet v /\ okv v /\ vals env rc v e) by (intros o e; apply fetch_ok; assumption).
  destruct i as [o d|a off|o a d|o a d|o a d|o a d|k a d|k a d|off d]; cbn [sstep step] in *; unfold bin.
  - destruct (sfetch t o) as [e| |] eqn:E; try discriminate H. destruct (F o e E) as (v & Ev & Ov & Vv). rewrite Ev. cbn [cbind] in *. injection H as <-.
    eexists. split; [reflexivity|]. apply setr_ok; assumption.
  - destruct (addr off) as [i| |] eqn:E; try discriminate H. cbn [cbind] in *. injection H as <-. eexists. split; [reflexivity|].
    destruct O as (O1 & O2 & O3 & O4). destruct S as (S1 & S2 & S3 & S4). split.
    + unfold okm; cbn [yregs ymem]. rewrite put_length. split; [exact O1|]. split; [exact O2|]. split; [exact O3|]. apply put_Forall; [exact O4|apply Or].
    + unfold sim, reg, sreg; cbn [yregs ymem sregs smem]. rewrite put_length. split; [exact S1|]. split; [exact S2|]. split; [exact S3|].
      intro n. destruct (Nat.ltb_spec i 25) as [D | D].
      * rewrite !nth_put by lia. destruct (n =? i)%nat; [apply Sr|apply S4].
      * rewrite !put_out by lia. apply S4.
  - destruct (sfetch t o) as [e| |] eqn:E; try discriminate H. destruct (F o e E) as (v & Ev & Ov & Vv). rewrite Ev. cbn [cbind] in *. injection H as <-.
    eexists. split; [reflexivity|]. apply setr_ok; [assumption|assumption|apply map2_okv; auto using lxor_w|].
    apply (bin_vals env rc _ _ _ _ _ _ (Or a) Ov (Sr a) Vv). intro j. rewrite den_xor. reflexivity.
  - destruct (sfetch t o) as [e| |] eqn:E; try discriminate H. destruct (F o e E) as (v & Ev & Ov & Vv). rewrite Ev. cbn [cbind] in *.
    destruct (s_or (sreg t a) e) as [w| |] eqn:Ew; try discriminate H. cbn [cbind] in H. injection H as <-.
    eexists. split; [reflexivity|]. apply setr_ok; [assumption|assumption|apply map2_okv; auto using lor_w|].
    apply (bin_vals env rc _ _ _ _ _ _ (Or a) Ov (Sr a) Vv). intro j. apply s_or_ok; auto.
  - destruct (sfetch t o) as [e| |] eqn:E; try discriminate H. destruct (F o e E) as (v & Ev & Ov & Vv). rewrite Ev. cbn [cbind] in *. injection H as <-.
    eexists. split; [reflexivity|]. apply setr_ok; [assumption|assumption|apply map2_okv; auto using land_w|].
    apply (bin_vals env rc _ _ _ _ _ _ (Or a) Ov (Sr a) Vv). intro j. reflexivity.
  - destruct (sfetch t o) as [e| |] eqn:E; try discriminate H. destruct (F o e E) as (v & Ev & Ov & Vv). rewrite Ev. cbn [cbind] in *.
    destruct (s_shuf (sreg t a) e) as [w| |] eqn:Ew; try discriminate H. cbn [cbind] in H. injection H as <-.
    destruct (s_shuf_ok env rc _ _ _ _ _ (Or a) Ov Vv (Sr a) Ew) as [V1 V2].
    eexists. split; [reflexivity|]. apply setr_ok; assumption.
  - injection H as <-. eexists. split; [reflexivity|]. apply setr_ok; [assumption|assumption|apply map_okv; [intros; apply u64_w|apply Or]|].
    apply (un_vals env rc _ _ _ _ (Or a) (Sr a)). intro j. reflexivity.
  - injection H as <-. eexists. split; [reflexivity|]. apply setr_ok; [assumption|assumption|apply map_okv; [intros; apply shiftr_w; [lia|assumption]|apply Or]|].
    apply (un_vals env rc _ _ _ _ (Or a) (Sr a)). intro j. reflexivity.
  - destruct ((off mod 8 =? 0) && (off / 8 <? nrc))%nat%bool eqn:B; try discriminate H. apply andb_prop in B. destruct B as [B1 B2]. apply Nat.ltb_lt in B2.
    rewrite B1. replace (off / 8 <? length rc)%nat with true by (symmetry; apply Nat.ltb_lt; lia). cbn [andb]. injection H as <-. eexists. split; [reflexivity|].
    apply setr_ok; [assumption|assumption|apply repeat_okv, nth_w64, Wr|]. intros j J. cbn [den].
    do 4 (destruct j as [|j]; [reflexivity|]). lia.
Qed.
Lemma ssteps_ok : forall env rc nrc l s t t', (forall j n, w64 (env j n)) -> Forall w64 rc -> (nrc <= length rc)%nat -> okm s -> sim env rc s t ->
  ssteps nrc l t = CRet t' -> exists s', steps rc l s = CRet s' /\ okm s' /\ sim env rc s' t'.
Proof.
  intros env rc nrc l. induction l as [|i l IH]; intros s t t' W Wr Ln O S H; cbn [ssteps steps] in *.
  - injection H as <-. eexists. split; [reflexivity|]. split; assumption.
  - destruct (sstep nrc t i) as [t1| |] eqn:E; try discriminate H. cbn [cbind] in H.
    destruct (sstep_ok env rc nrc s t i t1 W Wr Ln O S E) as (s1 & E1 & O1 & S1). rewrite E1. cbn [cbind]. apply (IH s1 t1 t'); assumption.
Qed.

(** ** One round *)
(** Where round k finds lane i of the state. *)
Definition place (k : nat) : list nat := nth k [seq 0 25;
  [0; 6; 12; 18; 24; 10; 16; 22; 3; 9; 20; 1; 7; 13; 19; 5; 11; 17; 23; 4; 15; 21; 2; 8; 14];
  [0; 16; 7; 23; 14; 20; 11; 2; 18; 9; 15; 6; 22; 13; 4; 10; 1; 17; 8; 24; 5; 21; 12; 3; 19];
  [0; 11; 22; 8; 19; 15; 1; 12; 23; 9; 5; 16; 2; 13; 24; 20; 6; 17; 3; 14; 10; 21; 7; 18; 4];
  seq 0 25]%nat [].
(** The round of Keccak on expressions. *)
Definition eC (s : list ex) (x : nat) : ex := let a := fun y => nth (5 * y + x) s Ze in Xr (Xr (Xr (Xr (a 0%nat) (a 1%nat)) (a 2%nat)) (a 3%nat)) (a 4%nat).
Definition eD (s : list ex) (x : nat) : ex := Xr (eC s ((x + 4) mod 5)) (Ro 1 (eC s ((x + 1) mod 5))).
Definition eT (s : list ex) (x y : nat) : ex := Xr (nth (5 * y + x) s Ze) (eD s x).
Definition eB (s : list ex) (x y : nat) : ex :=
  let x' := ((x + 3 * y) mod 5)%nat in
  match (rho_offset x' x mod 64)%nat with O => eT s x' x | n => Ro n (eT s x' x) end.
Definition eX (s : list ex) (x y : nat) : ex := Xr (eB s x y) (An (eB s ((x + 1) mod 5) y) (eB s ((x + 2) mod 5) y)).
Definition eround (c : nat) (s : list ex) : list ex :=
  map (fun i => if (i =? 0)%nat then Xr (eX s 0 0) (Cc c) else eX s (i mod 5) (i / 5)) (seq 0 25).
Definition start : smach := Smach (Ms true :: map (fun n => V (25 + n)) (seq 0 15)) (map V (seq 0 25)).
Definition round_check (k : nat) (l : list ins) : bool :=
  match ssteps 4 l start with
  | CRet t => same (sreg t 0) (Ms true) &&
              forallb (fun ab => same (fst ab) (norm (snd ab)))
                (combine (map (fun a => nth a (smem t) Ze) (place (S k))) (eround k (map V (place k))))
  | _ => false
  end.
Lemma round0_check : round_check 0 round0 = true. Proof. vm_compute. reflexivity. Qed.
Lemma round1_check : round_check 1 round1 = true. Proof. vm_compute. reflexivity. Qed.
Lemma round2_check : round_check 2 round2 = true. Proof. vm_compute. reflexivity. Qed.
Lemma round3_check : round_check 3 round3 = true. Proof. vm_compute. reflexivity. Qed.
Definition lanes (mem : list vec) (pl : list nat) (j : nat) : list Z := map (fun a => nth j (nth a mem zero4) 0) pl.
Lemma eround_den : forall k env rc j, (k < 4)%nat -> map (den env rc j) (eround k (map V (place k))) = lround (nth k rc 0) (map env (place k)).
Proof.
  intros k env rc j K. set (c := nth k rc 0).
  assert (E : forall l, map (den env rc j) (eround k l) = map (fun i => if (i =? 0)%nat then Z.lxor (den env rc j (eX l 0 0)) c else den env rc j (eX l (i mod 5) (i / 5))) (seq 0 25)).
  { intro l. unfold eround. rewrite map_map. apply map_ext. intro i. destruct (i =? 0)%nat; reflexivity. }
  rewrite E. clear E. clearbody c.
  do 4 (destruct k as [|k]; [cbv -[Z.lxor Z.land ROL not64]; reflexivity|]). lia.
Qed.
Lemma round_ok : forall k l rc s, (k < 4)%nat -> round_check k l = true -> (4 <= length rc)%nat -> Forall w64 rc -> okm s -> reg s 0 = rho8 ->
  exists s', steps rc l s = CRet s' /\ okm s' /\ reg s' 0 = rho8 /\
    forall j, (j < 4)%nat -> lanes (ymem s') (place (S k)) j = lround (nth k rc 0) (lanes (ymem s) (place k) j).
Proof.
  intros k l rc s K C L Wr O R0. unfold round_check in C. destruct (ssteps 4 l start) as [t| |] eqn:E; try discriminate C.
  apply andb_prop in C. destruct C as [C1 C2].
  set (env := fun (j n : nat) => if (n <? 25)%nat then nth j (nth n (ymem s) zero4) 0 else nth j (reg s (n - 24)) 0).
  assert (W : forall j n, w64 (env j n)).
  { intros j n. unfold env. destruct O as (O1 & O2 & O3 & O4). destruct (n <? 25)%nat; apply nth_w64, nth_okv; assumption. }
  assert (S0 : sim env rc s start).
  { unfold sim. split; [reflexivity|]. split; [reflexivity|]. split.
    - intros n j J. destruct n as [|n]; [rewrite R0; reflexivity|]. unfold sreg, start; cbn [sregs nth].
      destruct (Nat.ltb_spec n 15) as [N | N].
      + rewrite (nth_indep _ Ze (V (25 + 0))) by (rewrite map_length, seq_length; exact N). rewrite (map_nth (fun n => V (25 + n))), seq_nth by exact N.
        cbn [den]. unfold env. replace (25 + (0 + n) <? 25)%nat with false by (symmetry; apply Nat.ltb_ge; lia). replace (25 + (0 + n) - 24)%nat with (S n) by lia. reflexivity.
      + rewrite (nth_overflow (map _ _)) by (rewrite map_length, seq_length; exact N). unfold reg. destruct O as (O1 & _). rewrite (nth_overflow (yregs s)) by (rewrite O1; lia).
        cbn [den]. do 4 (destruct j as [|j]; [reflexivity|]). lia.
    - intros i j J. unfold start; cbn [smem]. destruct (Nat.ltb_spec i 25) as [N | N].
      + rewrite (nth_indep _ Ze (V 0)) by (rewrite map_length, seq_length; exact N). rewrite map_nth, seq_nth by exact N. cbn [den]. unfold env.
        cbn [Nat.add]. replace (i <? 25)%nat with true by (symmetry; apply Nat.ltb_lt; exact N). reflexivity.
      + rewrite (nth_overflow (map _ _)) by (rewrite map_length, seq_length; exact N). destruct O as (_ & O2 & _). rewrite (nth_overflow (ymem s)) by (rewrite O2; lia).
        cbn [den]. do 4 (destruct j as [|j]; [reflexivity|]). lia. }
  destruct (ssteps_ok env rc 4 l s start t W Wr L O S0 E) as (s' & Es & Os & Ss). clear E S0.
  exists s'. split; [exact Es|]. split; [exact Os|]. destruct Ss as (_ & _ & S3 & S4). split.
  - apply same_eq in C1. apply vec_ext; [|reflexivity|].
    + apply nth_okv. apply Os.
    + intros j J. rewrite (S3 0%nat j J), C1. reflexivity.
  - intros j J. assert (P : Forall (fun a => (a < 25)%nat) (place k)).
    { clear - K. do 4 (destruct k as [|k]; [unfold place; cbn [nth seq]; repeat (apply Forall_cons; [lia|]); apply Forall_nil|]). lia. }
    assert (X : lanes (ymem s) (place k) j = map (env j) (place k)).
    { unfold lanes. apply map_ext_Forall. eapply Forall_impl; [|exact P]. intros a A. cbv beta in A. unfold env.
      replace (a <? 25)%nat with true by (symmetry; apply Nat.ltb_lt; exact A). reflexivity. }
    rewrite X. rewrite <- (eround_den k (env j) rc j K). clear X P.
    assert (Y : lanes (ymem s') (place (S k)) j = map (den (env j) rc j) (map (fun a => nth a (smem t) Ze) (place (S k)))).
    { unfold lanes. rewrite map_map. apply map_ext. intro a. apply (S4 a j J). }
    rewrite Y. clear Y.
    assert (LL : length (map (fun a => nth a (smem t) Ze) (place (S k))) = length (eround k (map V (place k)))).
    { unfold eround. rewrite !map_length, seq_length. clear - K. do 4 (destruct k as [|k]; [reflexivity|]). lia. }
    revert LL C2. generalize (map (fun a => nth a (smem t) Ze) (place (S k))), (eround k (map V (place k))). clear.
    intro l1. induction l1 as [|x l1 IH]; intros [|y l2] LL C; try discriminate LL; [reflexivity|].
    cbn [combine forallb fst snd] in C. apply andb_prop in C. destruct C as [C1 C2]. cbn [map]. f_equal.
    + apply same_eq in C1. rewrite C1. apply den_norm.
    + apply IH; [cbn in LL; lia|exact C2].
Qed.

(** ** The permutation *)
Definition lane_of (s : list vec) (j : nat) : list Z := map (fun v => nth j v 0) s.
Definition okst (s : list vec) : Prop := length s = 25%nat /\ Forall okv s.
Lemma lanes_all : forall s j, length s = 25%nat -> lanes s (seq 0 25) j = lane_of s j.
Proof.
  intros s j L. unfold lanes, lane_of. rewrite <- (map_map (fun a => nth a s zero4) (fun v => nth j v 0)). f_equal.
  rewrite <- L. apply (nth_ext _ _ zero4 zero4); [rewrite map_length, seq_length; reflexivity|].
  intros n N. rewrite map_length, seq_length in N. rewrite (nth_indep _ zero4 (nth 0 s zero4)) by (rewrite map_length, seq_length; exact N).
  rewrite (map_nth (fun a => nth a s zero4)), seq_nth by exact N. reflexivity.
Qed.
Lemma steps_app : forall rc a b s, steps rc (a ++ b) s = cbind (steps rc a s) (steps rc b).
Proof. intros rc a. induction a as [|i a IH]; intros b s; [reflexivity|]. cbn [app steps]. destruct (step rc s i); cbn [cbind]; [apply IH| |]; reflexivity. Qed.
Lemma body_ok : forall rc s, (4 <= length rc)%nat -> Forall w64 rc -> okm s -> reg s 0 = rho8 ->
  exists s', steps rc (round0 ++ round1 ++ round2 ++ round3) s = CRet s' /\ okm s' /\ reg s' 0 = rho8 /\
    forall j, (j < 4)%nat -> lane_of (ymem s') j =
      lround (nth 3 rc 0) (lround (nth 2 rc 0) (lround (nth 1 rc 0) (lround (nth 0 rc 0) (lane_of (ymem s) j)))).
Proof.
  intros rc s L Wr O R0.
  destruct (round_ok 0 round0 rc s ltac:(lia) round0_check L Wr O R0) as (s1 & E1 & O1 & R1 & H1).
  destruct (round_ok 1 round1 rc s1 ltac:(lia) round1_check L Wr O1 R1) as (s2 & E2 & O2 & R2 & H2).
  destruct (round_ok 2 round2 rc s2 ltac:(lia) round2_check L Wr O2 R2) as (s3 & E3 & O3 & R3 & H3).
  destruct (round_ok 3 round3 rc s3 ltac:(lia) round3_check L Wr O3 R3) as (s4 & E4 & O4 & R4 & H4).
  exists s4. split.
  - rewrite steps_app, E1. cbn [cbind]. rewrite steps_app, E2. cbn [cbind]. rewrite steps_app, E3. cbn [cbind]. exact E4.
  - split; [exact O4|]. split; [exact R4|]. intros j J. destruct O as (_ & LO & _). destruct O4 as (_ & LO4 & _).
    rewrite <- (lanes_all (ymem s) j LO), <- (lanes_all (ymem s4) j LO4).
    specialize (H1 j J). specialize (H2 j J). specialize (H3 j J). specialize (H4 j J).
    change (place 0) with (seq 0 25) in H1. change (place 4) with (seq 0 25) in H4. rewrite H4, H3, H2, H1. reflexivity.
Qed.
Local Opaque round0 round1 round2 round3 lround.
Definition rc_at (k : nat) : list Z := skipn k RoundConstants4.
Lemma rc4_w : Forall w64 RoundConstants4.
Proof. unfold RoundConstants4. repeat (apply Forall_cons; [unfold w64; lia|]). apply Forall_nil. Qed.
Lemma loop_ok : forall n s, (n <= 6)%nat -> okm s -> reg s 0 = rho8 ->
  exists s', looptop n (skipn (4 * (6 - n)) RoundConstants4) s = CRet s' /\ okm s' /\
    forall j, (j < 4)%nat -> lane_of (ymem s') j = rounds (seq (4 * (6 - n)) (4 * n)) (lane_of (ymem s) j).
Proof.
  intro n. induction n as [|n IH]; intros s N O R0.
  - exists s. split; [reflexivity|]. split; [exact O|]. intros j J. reflexivity.
  - assert (LR : length RoundConstants4 = 24%nat) by reflexivity.
    destruct (body_ok (skipn (4 * (6 - S n)) RoundConstants4) s) as (s1 & E1 & O1 & R1 & H1); [rewrite skipn_length, LR; lia| |exact O|exact R0|].
    { assert (F := rc4_w). rewrite <- (firstn_skipn (4 * (6 - S n)) RoundConstants4) in F. apply Forall_app in F. apply F. }
    destruct (IH s1 ltac:(lia) O1 R1) as (s2 & E2 & O2 & H2). exists s2. split; [|split; [exact O2|]].
    + cbn [looptop]. rewrite E1. cbn [cbind].
      assert (SK : skipn 4 (skipn (4 * (6 - S n)) RoundConstants4) = skipn (4 * (6 - n)) RoundConstants4).
      { clear - N. do 6 (destruct n as [|n]; [reflexivity|]). lia. }
      rewrite SK. exact E2.
    + intros j J. rewrite (H2 j J), (H1 j J).
      assert (NT : forall i, nth i (skipn (4 * (6 - S n)) RoundConstants4) 0 = nth (4 * (6 - S n) + i) KeccakF_RoundConstants 0).
      { intro i. change RoundConstants4 with KeccakF_RoundConstants. generalize (4 * (6 - S n))%nat, KeccakF_RoundConstants. clear.
        induction n as [|n IH]; intros l; [reflexivity|]. destruct l; [destruct i; reflexivity|]. cbn [skipn Nat.add nth]. apply IH. }
      rewrite !NT. unfold rounds. replace (4 * S n)%nat with (4 + 4 * n)%nat by lia. rewrite seq_app, fold_left_app.
      replace (4 * (6 - S n) + 4)%nat with (4 * (6 - n))%nat by lia. cbn [seq fold_left].
      rewrite !Nat.add_0_r, !Nat.add_succ_r, Nat.add_0_r. reflexivity.
Qed.
(** The four-way permutation: for every state and whatever the registers hold, the routine ends
    within its arrays and lane j of the result is the permutation of lane j. *)
Theorem f1600x4_ok : forall regs s, length regs = 16%nat -> Forall okv regs -> okst s ->
  exists s', f1600x4 regs s RoundConstants4 = CRet s' /\ okst s' /\
    forall j, (j < 4)%nat -> lane_of s' j = StatePermute (lane_of s j).
Proof.
  intros regs s Lr Fr [Ls Fs]. unfold f1600x4. cbn [step fetch cbind].
  assert (O : okm (setr (Mach regs s) 0 rho8)).
  { unfold okm, setr; cbn [yregs ymem]. rewrite put_length. split; [exact Lr|]. split; [exact Ls|]. split; [|exact Fs]. apply put_Forall; [exact Fr|apply (rho_ok true)]. }
  destruct (loop_ok 6 (setr (Mach regs s) 0 rho8) ltac:(lia) O) as (m & E & (O1 & O2 & O3 & O4) & H).
  { unfold reg, setr; cbn [yregs]. rewrite nth_put by lia. reflexivity. }
  change (skipn (4 * (6 - 6)) RoundConstants4) with RoundConstants4 in E. rewrite E. cbn [cbind].
  exists (ymem m). split; [reflexivity|]. split; [split; assumption|]. intros j J. rewrite (H j J). unfold setr; cbn [ymem].
  rewrite permute_rounds by (unfold lane_of; rewrite map_length; exact Ls). reflexivity.
Qed.
