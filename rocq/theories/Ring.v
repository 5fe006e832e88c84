(** * Ring: negacyclic convolution over the integers.

    A polynomial modulo x^n+1 is represented by the anti-periodic extension of its
    coefficient sequence, F (k + n) = - F k; the product is the convolution over one
    period.  This file proves the ring laws. *)
From Coq Require Import ZArith List Lia Bool.
From Verif Require Import Base.
Import ListNotations.
Open Scope Z_scope.

(** Sum of [f 0 .. f (n-1)]. *)
Fixpoint zsum (n : nat) (f : Z -> Z) : Z :=
  match n with O => 0 | S m => zsum m f + f (Z.of_nat m) end.

Lemma zsum_ext : forall n f g,
  (forall i, 0 <= i < Z.of_nat n -> f i = g i) -> zsum n f = zsum n g.
Proof.
  induction n as [|n IH]; intros f g H; cbn [zsum]; [reflexivity|].
  rewrite (IH f g) by (intros; apply H; lia). rewrite H by lia. reflexivity.
Qed.

Lemma zsum_0 : forall n, zsum n (fun _ => 0) = 0.
Proof. induction n; cbn [zsum]; lia. Qed.

Lemma zsum_add : forall n f g, zsum n (fun i => f i + g i) = zsum n f + zsum n g.
Proof. induction n; intros; cbn [zsum]; [lia|]. rewrite IHn. lia. Qed.

Lemma zsum_opp : forall n f, zsum n (fun i => - f i) = - zsum n f.
Proof. induction n; intros; cbn [zsum]; [lia|]. rewrite IHn. lia. Qed.

Lemma zsum_sub : forall n f g, zsum n (fun i => f i - g i) = zsum n f - zsum n g.
Proof. induction n; intros; cbn [zsum]; [lia|]. rewrite IHn. lia. Qed.

Lemma zsum_scal_l : forall n c f, zsum n (fun i => c * f i) = c * zsum n f.
Proof. induction n; intros; cbn [zsum]; [lia|]. rewrite IHn. lia. Qed.

Lemma zsum_scal_r : forall n c f, zsum n (fun i => f i * c) = zsum n f * c.
Proof. induction n; intros; cbn [zsum]; [lia|]. rewrite IHn. lia. Qed.

Lemma zsum_swap : forall n m f,
  zsum n (fun i => zsum m (fun j => f i j)) = zsum m (fun j => zsum n (fun i => f i j)).
Proof.
  induction n as [|n IH]; intros m f; cbn [zsum].
  - rewrite zsum_0. reflexivity.
  - rewrite IH. rewrite zsum_add. reflexivity.
Qed.

Lemma zsum_mod : forall m n f g, 
  (forall i, 0 <= i < Z.of_nat n -> f i mod m = g i mod m) ->
  zsum n f mod m = zsum n g mod m.
Proof.
  intros m. induction n as [|n IH]; intros f g H; cbn [zsum]; [reflexivity|].
  rewrite Zplus_mod, (IH f g), (H (Z.of_nat n)), <- Zplus_mod by (intros; try apply H; lia).
  reflexivity.
Qed.

Lemma zsum_telescope : forall n f,
  zsum n (fun i => f (i + 1) - f i) = f (Z.of_nat n) - f 0.
Proof.
  induction n as [|n IH]; intros f; cbn [zsum]; [cbn; lia|].
  rewrite IH. replace (Z.of_nat n + 1) with (Z.of_nat (S n)) by lia. lia.
Qed.

Lemma zsum_first : forall n f,
  zsum (S n) f = f 0 + zsum n (fun i => f (i + 1)).
Proof.
  induction n as [|n IH]; intros f; [cbn; lia|].
  cbn [zsum] in *. rewrite IH.
  replace (Z.of_nat n + 1) with (Z.of_nat (S n)) by lia. lia.
Qed.

Lemma zsum_rev : forall n f, zsum n (fun i => f (Z.of_nat n - 1 - i)) = zsum n f.
Proof.
  induction n as [|n IH]; intros f; [reflexivity|].
  rewrite zsum_first. cbn [zsum].
  replace (Z.of_nat (S n) - 1 - 0) with (Z.of_nat n) by lia.
  rewrite (zsum_ext n _ (fun i => f (Z.of_nat n - 1 - i))).
  - rewrite IH. lia.
  - intros i Hi. f_equal. lia.
Qed.

Definition periodic (n : nat) (f : Z -> Z) : Prop := forall k, f (k + Z.of_nat n) = f k.
Definition antiper (n : nat) (f : Z -> Z) : Prop := forall k, f (k + Z.of_nat n) = - f k.

Lemma zsum_shift1 : forall n f, periodic n f -> zsum n (fun i => f (i + 1)) = zsum n f.
Proof.
  intros n f H. pose proof (zsum_telescope n f) as T. rewrite zsum_sub in T.
  specialize (H 0). rewrite Z.add_0_l in H. lia.
Qed.

Lemma zsum_shift : forall n f t, periodic n f -> zsum n (fun i => f (i + t)) = zsum n f.
Proof.
  intros n f t Hp. revert t.
  apply (Z.bi_induction (fun t => zsum n (fun i => f (i + t)) = zsum n f)).
  - intros x y ->. reflexivity.
  - apply zsum_ext. intros. f_equal. lia.
  - intros t.
    assert (Hq : periodic n (fun i => f (i + t))).
    { intro k. rewrite <- (Hp (k + t)). f_equal. lia. }
    rewrite <- (zsum_shift1 n (fun i => f (i + t)) Hq).
    rewrite (zsum_ext n (fun i => f (i + Z.succ t)) (fun i => f (i + 1 + t))); [tauto|].
    intros. f_equal. lia.
Qed.

Lemma zsum_reflect : forall n f k, periodic n f -> zsum n (fun i => f (k - i)) = zsum n f.
Proof.
  intros n f k H.
  rewrite <- (zsum_shift n f (k - (Z.of_nat n - 1)) H).
  rewrite <- (zsum_rev n (fun i => f (i + (k - (Z.of_nat n - 1))))).
  apply zsum_ext. intros i Hi. f_equal. lia.
Qed.

(** Product. *)
Definition nconv (n : nat) (F G : Z -> Z) (k : Z) : Z := zsum n (fun i => F i * G (k - i)).

Lemma antiper_sub : forall n f k, antiper n f -> f (k - Z.of_nat n) = - f k.
Proof.
  intros n f k H. specialize (H (k - Z.of_nat n)).
  replace (k - Z.of_nat n + Z.of_nat n) with k in H by lia. lia.
Qed.

Lemma nconv_antiper : forall n F G, antiper n G -> antiper n (nconv n F G).
Proof.
  intros n F G HG k. unfold nconv. rewrite <- zsum_opp. apply zsum_ext. intros i Hi.
  replace (k + Z.of_nat n - i) with ((k - i) + Z.of_nat n) by lia. rewrite HG. lia.
Qed.

Lemma antiper_prod_periodic : forall n F G k, antiper n F -> antiper n G ->
  periodic n (fun i => F i * G (k - i)).
Proof.
  intros n F G k HF HG i. rewrite HF.
  replace (k - (i + Z.of_nat n)) with ((k - i) - Z.of_nat n) by lia.
  rewrite antiper_sub by exact HG. lia.
Qed.

Lemma nconv_comm : forall n F G k, antiper n F -> antiper n G ->
  nconv n F G k = nconv n G F k.
Proof.
  intros n F G k HF HG. unfold nconv.
  rewrite <- (zsum_reflect n (fun i => F i * G (k - i)) k)
    by (apply antiper_prod_periodic; assumption).
  apply zsum_ext. intros i Hi. replace (k - (k - i)) with i by lia. lia.
Qed.

Lemma nconv_assoc : forall n F G H k, antiper n F -> antiper n G -> antiper n H ->
  nconv n (nconv n F G) H k = nconv n F (nconv n G H) k.
Proof.
  intros n F G H k HF HG HH. unfold nconv.
  transitivity (zsum n (fun j => zsum n (fun i => F i * (G (j - i) * H (k - j))))).
  { apply zsum_ext. intros j Hj. rewrite <- zsum_scal_r. apply zsum_ext. intros. lia. }
  rewrite zsum_swap. apply zsum_ext. intros i Hi.
  rewrite zsum_scal_l. f_equal.
  rewrite <- (zsum_shift n (fun j => G (j - i) * H (k - j)) i).
  - apply zsum_ext. intros j Hj. f_equal; f_equal; lia.
  - intro j.
    replace (j + Z.of_nat n - i) with ((j - i) + Z.of_nat n) by lia. rewrite HG.
    replace (k - (j + Z.of_nat n)) with ((k - j) - Z.of_nat n) by lia.
    rewrite antiper_sub by exact HH. lia.
Qed.

Lemma nconv_add_l : forall n F G H k,
  nconv n (fun i => F i + G i) H k = nconv n F H k + nconv n G H k.
Proof.
  intros. unfold nconv. rewrite <- zsum_add. apply zsum_ext. intros. lia.
Qed.
Lemma nconv_add_r : forall n F G H k,
  nconv n F (fun i => G i + H i) k = nconv n F G k + nconv n F H k.
Proof.
  intros. unfold nconv. rewrite <- zsum_add. apply zsum_ext. intros. lia.
Qed.
Lemma nconv_sub_l : forall n F G H k,
  nconv n (fun i => F i - G i) H k = nconv n F H k - nconv n G H k.
Proof.
  intros. unfold nconv. rewrite <- zsum_sub. apply zsum_ext. intros. lia.
Qed.
Lemma nconv_scal_l : forall n c F G k, nconv n (fun i => c * F i) G k = c * nconv n F G k.
Proof.
  intros. unfold nconv. rewrite <- zsum_scal_l. apply zsum_ext. intros. lia.
Qed.
Lemma nconv_scal_r : forall n c F G k, nconv n F (fun i => c * G i) k = c * nconv n F G k.
Proof.
  intros. unfold nconv. rewrite <- zsum_scal_l. apply zsum_ext. intros. lia.
Qed.
Lemma nconv_ext : forall n F F' G G' k,
  (forall i, F i = F' i) -> (forall i, G i = G' i) -> nconv n F G k = nconv n F' G' k.
Proof.
  intros. unfold nconv. apply zsum_ext. intros. rewrite H, H0. reflexivity.
Qed.
Lemma nconv_mod : forall m n F F' G G' k,
  (forall i, F i mod m = F' i mod m) -> (forall i, G i mod m = G' i mod m) ->
  nconv n F G k mod m = nconv n F' G' k mod m.
Proof.
  intros. unfold nconv. apply zsum_mod. intros.
  rewrite Zmult_mod, H, H0, <- Zmult_mod. reflexivity.
Qed.

(** The anti-periodic extension of a coefficient list. *)
Definition ext (n : nat) (a : list Z) (k : Z) : Z :=
  (if Z.even (k / Z.of_nat n) then 1 else -1) * nth (Z.to_nat (k mod Z.of_nat n)) a 0.

Lemma ext_antiper : forall n a, (0 < n)%nat -> antiper n (ext n a).
Proof.
  intros n a Hn k. unfold ext.
  replace (k + Z.of_nat n) with (k + 1 * Z.of_nat n) by lia.
  rewrite Z.div_add, Z.mod_add by lia.
  replace (k / Z.of_nat n + 1) with (Z.succ (k / Z.of_nat n)) by lia.
  rewrite Z.even_succ, <- Z.negb_even. destruct (Z.even (k / Z.of_nat n)); cbn [negb]; lia.
Qed.

Lemma ext_in : forall n a k, 0 <= k < Z.of_nat n -> ext n a k = nth (Z.to_nat k) a 0.
Proof.
  intros n a k H. unfold ext. rewrite Z.div_small, Z.mod_small by lia.
  change (Z.even 0) with true. cbn iota. lia.
Qed.
Lemma ext_nat : forall n a k, (k < n)%nat -> ext n a (Z.of_nat k) = nth k a 0.
Proof. intros. rewrite ext_in by lia. rewrite Nat2Z.id. reflexivity. Qed.

Lemma ext_neg : forall n a k, - Z.of_nat n <= k < 0 ->
  ext n a k = - nth (Z.to_nat (k + Z.of_nat n)) a 0.
Proof.
  intros n a k H. rewrite <- (ext_in n a (k + Z.of_nat n)) by lia.
  rewrite (ext_antiper n a) by lia. lia.
Qed.

(** Two anti-periodic functions that agree on one period are equal. *)
Lemma antiper_eq : forall n F G, (0 < n)%nat -> antiper n F -> antiper n G ->
  (forall k, 0 <= k < Z.of_nat n -> F k = G k) -> forall k, F k = G k.
Proof.
  intros n F G Hn HF HG H k.
  assert (E : forall q r, 0 <= r < Z.of_nat n -> F (r + q * Z.of_nat n) = G (r + q * Z.of_nat n)).
  { intros q r Hr. revert q.
    apply (Z.bi_induction (fun q => F (r + q * Z.of_nat n) = G (r + q * Z.of_nat n))).
    - intros x y ->. reflexivity.
    - rewrite Z.mul_0_l, Z.add_0_r. apply H. lia.
    - intro q. replace (r + Z.succ q * Z.of_nat n) with (r + q * Z.of_nat n + Z.of_nat n) by lia.
      rewrite HF, HG. lia. }
  rewrite (Z.div_mod k (Z.of_nat n)) by lia.
  rewrite (Z.mul_comm (Z.of_nat n)), Z.add_comm.
  apply E. apply Z.mod_pos_bound. lia.
Qed.

Lemma antiper_mod_eq : forall m n F G, (0 < n)%nat -> antiper n F -> antiper n G ->
  (forall k, 0 <= k < Z.of_nat n -> F k mod m = G k mod m) -> forall k, F k mod m = G k mod m.
Proof.
  intros m n F G Hn HF HG H k.
  assert (N : forall a b, a mod m = b mod m -> (- a) mod m = (- b) mod m).
  { intros a b E. destruct (Z.eq_dec m 0) as [->|Hm].
    { rewrite !Zmod_0_r in *. congruence. }
    replace (-a) with (0 - a) by lia. replace (-b) with (0 - b) by lia.
    rewrite Zminus_mod, E, <- Zminus_mod. reflexivity. }
  assert (E : forall q r, 0 <= r < Z.of_nat n ->
     F (r + q * Z.of_nat n) mod m = G (r + q * Z.of_nat n) mod m).
  { intros q r Hr. revert q.
    apply (Z.bi_induction (fun q => F (r + q * Z.of_nat n) mod m = G (r + q * Z.of_nat n) mod m)).
    - intros x y ->. reflexivity.
    - rewrite Z.mul_0_l, Z.add_0_r. apply H. lia.
    - intro q. replace (r + Z.succ q * Z.of_nat n) with (r + q * Z.of_nat n + Z.of_nat n) by lia.
      rewrite HF, HG. split; intro X; [apply N; exact X|].
      apply N in X. rewrite !Z.opp_involutive in X. exact X. }
  rewrite (Z.div_mod k (Z.of_nat n)) by lia.
  rewrite (Z.mul_comm (Z.of_nat n)), Z.add_comm.
  apply E. apply Z.mod_pos_bound. lia.
Qed.

(** ** The textbook product modulo x^n + 1, as a signed double sum. *)
Definition negacyclic (n : nat) (a b : list Z) (k : nat) : Z :=
  zsum n (fun i => zsum n (fun j =>
    if i + j =? Z.of_nat k then nth (Z.to_nat i) a 0 * nth (Z.to_nat j) b 0
    else if i + j =? Z.of_nat k + Z.of_nat n
         then - (nth (Z.to_nat i) a 0 * nth (Z.to_nat j) b 0)
    else 0)).

Lemma zsum_single : forall n f t, 0 <= t < Z.of_nat n ->
  (forall i, 0 <= i < Z.of_nat n -> i <> t -> f i = 0) -> zsum n f = f t.
Proof.
  induction n as [|n IH]; intros f t Ht H; [lia|]. cbn [zsum].
  destruct (Z.eq_dec t (Z.of_nat n)) as [->|N].
  - rewrite (zsum_ext n f (fun _ => 0)); [rewrite zsum_0; lia|].
    intros i Hi. apply H; lia.
  - rewrite (IH f t); [|lia|intros; apply H; lia]. rewrite (H (Z.of_nat n)) by lia. lia.
Qed.

Lemma negacyclic_nconv : forall n a b k, (k < n)%nat ->
  negacyclic n a b k = nconv n (ext n a) (ext n b) (Z.of_nat k).
Proof.
  intros n a b k Hk. unfold negacyclic, nconv. apply zsum_ext. intros i Hi.
  rewrite ext_in by lia.
  destruct (Z.le_gt_cases i (Z.of_nat k)) as [L|L].
  - rewrite (zsum_single n _ (Z.of_nat k - i)); [|lia|].
    + replace (i + (Z.of_nat k - i)) with (Z.of_nat k) by lia. rewrite Z.eqb_refl.
      rewrite ext_in by lia. reflexivity.
    + intros j Hj Nj.
      destruct (Z.eqb_spec (i + j) (Z.of_nat k)); [lia|].
      destruct (Z.eqb_spec (i + j) (Z.of_nat k + Z.of_nat n)); [lia|reflexivity].
  - rewrite (zsum_single n _ (Z.of_nat k + Z.of_nat n - i)); [|lia|].
    + destruct (Z.eqb_spec (i + (Z.of_nat k + Z.of_nat n - i)) (Z.of_nat k)); [lia|].
      replace (i + (Z.of_nat k + Z.of_nat n - i)) with (Z.of_nat k + Z.of_nat n) by lia.
      rewrite Z.eqb_refl. rewrite ext_neg by lia.
      replace (Z.of_nat k - i + Z.of_nat n) with (Z.of_nat k + Z.of_nat n - i) by lia. lia.
    + intros j Hj Nj.
      destruct (Z.eqb_spec (i + j) (Z.of_nat k)); [lia|].
      destruct (Z.eqb_spec (i + j) (Z.of_nat k + Z.of_nat n)); [lia|reflexivity].
Qed.
