(** * SaberRing: the loops of poly.rs compute in Z_65536[x]/(x^256+1). *)
From Coq Require Import ZArith List Lia Bool.
From Verif Require Import Base Bits SaberPoly SaberCodec3 Ring.
Import ListNotations.
Open Scope Z_scope.

Lemma upd_length : forall c k v, length (upd c k v) = length c.
Proof. induction c; intros [|k] v; cbn; auto. Qed.

Lemma at_upd_eq : forall c k v, (k < length c)%nat -> at_ (upd c k v) k = v.
Proof.
  unfold at_. induction c; intros [|k] v H; cbn in *; try lia; auto. apply IHc. lia.
Qed.
Lemma at_upd_neq : forall c k j v, k <> j -> at_ (upd c k v) j = at_ c j.
Proof.
  unfold at_. induction c; intros [|k] [|j] v H; cbn; auto; try lia.
Qed.
Lemma upd_u16 : forall c k v, Forall is_u16 c -> is_u16 v -> Forall is_u16 (upd c k v).
Proof.
  induction c; intros [|k] v H Hv; cbn; auto; inversion H; subst; constructor; auto.
Qed.

(** Sum of [f] over a list of indices. *)
Fixpoint lsum (f : nat -> Z) (l : list nat) : Z :=
  match l with [] => 0 | j :: t => f j + lsum f t end.

Lemma lsum_app : forall f a b, lsum f (a ++ b) = lsum f a + lsum f b.
Proof. induction a; intros; cbn; [lia|]. rewrite IHa. lia. Qed.
Lemma lsum_ext : forall f g l, (forall j, In j l -> f j = g j) -> lsum f l = lsum g l.
Proof.
  induction l; intros H; cbn; auto. rewrite H by (left; auto). rewrite IHl; auto.
  intros. apply H. right. auto.
Qed.
Lemma lsum_seq : forall n f, lsum f (seq 0 n) = zsum n (fun i => f (Z.to_nat i)).
Proof.
  induction n as [|n IH]; intro f; [reflexivity|].
  rewrite seq_S, lsum_app, IH. cbn [zsum lsum]. rewrite Nat2Z.id. cbn [plus]. lia.
Qed.

Lemma fold_upd : forall (g : nat -> nat) (h : nat -> Z) (step : poly -> nat -> poly) js c k,
  (forall c j, Forall is_u16 c -> step c j = upd c (g j) (u16 (at_ c (g j) + h j))) ->
  (forall j, In j js -> (g j < length c)%nat) ->
  Forall is_u16 c -> (k < length c)%nat ->
  at_ (fold_left step js c) k =
    u16 (at_ c k + lsum (fun j => if (g j =? k)%nat then h j else 0) js)
  /\ length (fold_left step js c) = length c /\ Forall is_u16 (fold_left step js c).
Proof.
  intros g h step js. induction js as [|j js IH]; intros c k Hs Hg Hc Hk; cbn [fold_left lsum].
  - rewrite Z.add_0_r. split; [|auto]. rewrite u16_id; auto. apply at_u16. exact Hc.
  - rewrite Hs by exact Hc. set (c' := upd c (g j) _).
    assert (Hl : length c' = length c) by apply upd_length.
    assert (Hc' : Forall is_u16 c') by (apply upd_u16; [exact Hc|apply u16_range]).
    assert (Hg' : forall i, In i js -> (g i < length c')%nat)
      by (rewrite Hl; intros; apply Hg; right; assumption).
    assert (Hk' : (k < length c')%nat) by (rewrite Hl; exact Hk).
    destruct (IH c' k Hs Hg' Hc' Hk') as [H1 [H2 H3]].
    split; [|split; [lia|exact H3]].
    rewrite H1. unfold c'.
    destruct (Nat.eqb_spec (g j) k) as [->|N].
    + rewrite at_upd_eq by exact Hk. unfold u16. rewrite Zplus_mod_idemp_l. f_equal. lia.
    + rewrite at_upd_neq by exact N. rewrite Z.add_0_l. reflexivity.
Qed.

Lemma mul_add_step : forall a b i c j,
  mul_add a b i c j = upd c (i + j) (u16 (at_ c (i + j) + at_ a i * at_ b j)).
Proof.
  intros. unfold mul_add. f_equal. unfold u16. rewrite Zplus_mod_idemp_r. reflexivity.
Qed.
Lemma mul_sub_step : forall n a b i c j,
  mul_sub n a b i c j = upd c (i + j - n) (u16 (at_ c (i + j - n) + - (at_ a i * at_ b j))).
Proof.
  intros. unfold mul_sub. f_equal. unfold u16. rewrite Zminus_mod_idemp_r. reflexivity.
Qed.

(** Contribution of row i to coefficient k. *)
Definition row_term (n : nat) (a b : poly) (k i : nat) : Z :=
  lsum (fun j => if (i + j =? k)%nat then at_ a i * at_ b j else 0) (seq 0 (n - i)) +
  lsum (fun j => if (i + j - n =? k)%nat then - (at_ a i * at_ b j) else 0) (seq (n - i) i).

Lemma mul_row_spec : forall n a b i c k,
  length c = n -> (i < n)%nat -> Forall is_u16 c -> (k < n)%nat ->
  at_ (mul_row n a b c i) k = u16 (at_ c k + row_term n a b k i) /\
  length (mul_row n a b c i) = n /\ Forall is_u16 (mul_row n a b c i).
Proof.
  intros n a b i c k Hl Hi Hc Hk. unfold mul_row.
  destruct (fold_upd (fun j => i + j)%nat (fun j => at_ a i * at_ b j) (mul_add a b i)
              (seq 0 (n - i)) c k) as [H1 [H2 H3]]; try (rewrite ?Hl; auto; fail).
  { intros. apply mul_add_step. }
  { intros j Hj. apply in_seq in Hj. lia. }
  set (c1 := fold_left (mul_add a b i) (seq 0 (n - i)) c) in *.
  destruct (fold_upd (fun j => i + j - n)%nat (fun j => - (at_ a i * at_ b j)) (mul_sub n a b i)
              (seq (n - i) i) c1 k) as [G1 [G2 G3]]; try (rewrite ?H2, ?Hl; auto; fail).
  { intros. apply mul_sub_step. }
  { intros j Hj. apply in_seq in Hj. lia. }
  split; [|split; [lia|exact G3]].
  rewrite G1, H1. unfold row_term, u16. rewrite Zplus_mod_idemp_l. f_equal. lia.
Qed.

Lemma mul_rows_spec : forall n a b is c k,
  length c = n -> (forall i, In i is -> (i < n)%nat) -> Forall is_u16 c -> (k < n)%nat ->
  at_ (fold_left (mul_row n a b) is c) k = u16 (at_ c k + lsum (row_term n a b k) is) /\
  length (fold_left (mul_row n a b) is c) = n /\
  Forall is_u16 (fold_left (mul_row n a b) is c).
Proof.
  intros n a b is. induction is as [|i is IH]; intros c k Hl Hi Hc Hk; cbn [fold_left lsum].
  - rewrite Z.add_0_r. split; [|auto]. rewrite u16_id; auto. apply at_u16. exact Hc.
  - destruct (mul_row_spec n a b i c k) as [H1 [H2 H3]]; auto.
    { apply Hi. left. reflexivity. }
    destruct (IH (mul_row n a b c i) k) as [G1 [G2 G3]]; auto.
    { intros. apply Hi. right. assumption. }
    split; [|auto]. rewrite G1, H1. unfold u16. rewrite Zplus_mod_idemp_l. f_equal. lia.
Qed.

Lemma row_term_negacyclic : forall n a b k i, (k < n)%nat -> (i < n)%nat ->
  row_term n a b k i =
  zsum n (fun j =>
    if Z.of_nat i + j =? Z.of_nat k then nth i a 0 * nth (Z.to_nat j) b 0
    else if Z.of_nat i + j =? Z.of_nat k + Z.of_nat n
         then - (nth i a 0 * nth (Z.to_nat j) b 0)
    else 0).
Proof.
  intros n a b k i Hk Hi. unfold row_term.
  transitivity (lsum (fun j =>
    if Z.of_nat i + Z.of_nat j =? Z.of_nat k then nth i a 0 * nth j b 0
    else if Z.of_nat i + Z.of_nat j =? Z.of_nat k + Z.of_nat n
         then - (nth i a 0 * nth j b 0) else 0) (seq 0 n)).
  - assert (S : seq 0 n = seq 0 (n - i) ++ seq (n - i) i).
    { replace n with ((n - i) + i)%nat at 1 by lia. rewrite seq_app. reflexivity. }
    rewrite S, lsum_app.
    f_equal; apply lsum_ext; intros j Hj; apply in_seq in Hj; unfold at_.
    + destruct (Nat.eqb_spec (i + j) k), (Z.eqb_spec (Z.of_nat i + Z.of_nat j) (Z.of_nat k));
        try lia.
      destruct (Z.eqb_spec (Z.of_nat i + Z.of_nat j) (Z.of_nat k + Z.of_nat n)); lia.
    + destruct (Z.eqb_spec (Z.of_nat i + Z.of_nat j) (Z.of_nat k)); [lia|].
      destruct (Nat.eqb_spec (i + j - n) k),
        (Z.eqb_spec (Z.of_nat i + Z.of_nat j) (Z.of_nat k + Z.of_nat n)); lia.
  - rewrite lsum_seq. apply zsum_ext. intros j Hj. rewrite Z2Nat.id by lia. reflexivity.
Qed.

Lemma pmul_n_spec : forall n a b k, (k < n)%nat ->
  at_ (pmul_n n a b) k = u16 (negacyclic n a b k).
Proof.
  intros n a b k Hk. unfold pmul_n.
  destruct (mul_rows_spec n a b (seq 0 n) (repeat 0 n) k) as [H _]; auto.
  - apply repeat_length.
  - intros i Hi. apply in_seq in Hi. lia.
  - apply Forall_forall. intros x Hx. apply repeat_spec in Hx. subst. unfold is_u16. lia.
  - rewrite H. replace (at_ (repeat 0 n) k) with 0.
    + rewrite Z.add_0_l. f_equal. unfold negacyclic. rewrite lsum_seq.
      apply zsum_ext. intros i Hi. rewrite row_term_negacyclic by lia.
      rewrite Z2Nat.id by lia. reflexivity.
    + symmetry. apply nth_repeat.
Qed.

Lemma pmul_n_wf : forall n a b,
  length (pmul_n n a b) = n /\ Forall is_u16 (pmul_n n a b).
Proof.
  intros n a b. destruct n as [|n].
  - cbn. auto.
  - destruct (mul_rows_spec (S n) a b (seq 0 (S n)) (repeat 0 (S n)) 0) as [_ H]; auto; try lia.
    + apply repeat_length.
    + intros i Hi. apply in_seq in Hi. lia.
    + apply Forall_forall. intros x Hx. apply repeat_spec in Hx. subst. unfold is_u16. lia.
Qed.

Lemma pmul_wf : forall a b, wf_poly (pmul a b).
Proof. intros. apply pmul_n_wf. Qed.

(** ** Elementwise operations *)
Lemma pmul_spec : forall a b k, (k < DEG)%nat -> at_ (pmul a b) k = u16 (negacyclic DEG a b k).
Proof. intros a b k Hk. apply (pmul_n_spec DEG a b k Hk). Qed.

Lemma map2_at : forall f a b k, (k < length a)%nat -> (k < length b)%nat ->
  at_ (map2 f a b) k = f (at_ a k) (at_ b k).
Proof.
  unfold at_. induction a as [|x a IH]; intros [|y b] [|k] H1 H2; cbn in *; try lia; auto.
  apply IH; lia.
Qed.
Lemma map_at : forall f a k, (k < length a)%nat -> at_ (map f a) k = f (at_ a k).
Proof.
  unfold at_. induction a as [|x a IH]; intros [|k] H; cbn in *; try lia; auto. apply IH. lia.
Qed.
Lemma map2_u16 : forall (f : Z -> Z -> Z) a b, (forall x y, is_u16 (f x y)) -> Forall is_u16 (map2 f a b).
Proof. induction a as [|x a IH]; intros [|y b] H; cbn; auto. Qed.

Lemma padd_wf : forall a b, length a = DEG -> length b = DEG -> wf_poly (padd a b).
Proof.
  intros a b Ha Hb. split.
  - unfold padd. rewrite map2_length, Ha, Hb. reflexivity.
  - apply map2_u16. intros. apply u16_range.
Qed.
Lemma pzero_wf : wf_poly pzero.
Proof.
  split; [apply repeat_length|]. apply Forall_forall. intros x Hx. apply repeat_spec in Hx.
  subst. unfold is_u16. lia.
Qed.
Lemma at_pzero : forall k, at_ pzero k = 0.
Proof.
  intro k. unfold at_, pzero. apply nth_repeat.
Qed.

Lemma poly_ext : forall a b, length a = length b ->
  (forall k, (k < length a)%nat -> at_ a k = at_ b k) -> a = b.
Proof.
  intros a b Hl H. apply (nth_ext a b 0 0 Hl). exact H.
Qed.

(** ** The congruence view: a list of coefficients as an anti-periodic function,
    compared modulo [m] for any [m] dividing 2^16. *)
Definition E (a : poly) : Z -> Z := ext DEG a.
Definition star : (Z -> Z) -> (Z -> Z) -> Z -> Z := nconv DEG.

(** F and G agree modulo m. *)
Definition cong (m : Z) (F G : Z -> Z) : Prop := forall k, F k mod m = G k mod m.
Definition anti (F : Z -> Z) : Prop := antiper DEG F.

Lemma DEG_pos : (0 < DEG)%nat. Proof. unfold DEG. lia. Qed.

Lemma E_anti : forall a, anti (E a).
Proof. intro a. apply ext_antiper. apply DEG_pos. Qed.
Lemma star_anti : forall F G, anti G -> anti (star F G).
Proof. intros. apply nconv_antiper. assumption. Qed.
Lemma add_anti : forall F G, anti F -> anti G -> anti (fun k => F k + G k).
Proof. intros F G HF HG k. rewrite HF, HG. lia. Qed.
Lemma sub_anti : forall F G, anti F -> anti G -> anti (fun k => F k - G k).
Proof. intros F G HF HG k. rewrite HF, HG. lia. Qed.
Lemma scal_anti : forall c F, anti F -> anti (fun k => c * F k).
Proof. intros c F HF k. rewrite HF. lia. Qed.
Lemma zero_anti : anti (fun _ => 0).
Proof. intro k. reflexivity. Qed.

Lemma cong_refl : forall m F, cong m F F. Proof. intros m F k. reflexivity. Qed.
Lemma cong_sym : forall m F G, cong m F G -> cong m G F.
Proof. intros m F G H k. symmetry. apply H. Qed.
Lemma cong_trans : forall m F G H, cong m F G -> cong m G H -> cong m F H.
Proof. intros m F G H A B k. rewrite A. apply B. Qed.
Lemma cong_add : forall m F F' G G', cong m F F' -> cong m G G' ->
  cong m (fun k => F k + G k) (fun k => F' k + G' k).
Proof. intros m F F' G G' H1 H2 k. rewrite Zplus_mod, H1, H2, <- Zplus_mod. reflexivity. Qed.
Lemma cong_sub : forall m F F' G G', cong m F F' -> cong m G G' ->
  cong m (fun k => F k - G k) (fun k => F' k - G' k).
Proof. intros m F F' G G' H1 H2 k. rewrite Zminus_mod, H1, H2, <- Zminus_mod. reflexivity. Qed.
Lemma cong_star : forall m F F' G G', cong m F F' -> cong m G G' ->
  cong m (star F G) (star F' G').
Proof. intros m F F' G G' H1 H2 k. apply nconv_mod; assumption. Qed.

(** Congruence from coefficients. *)
Lemma cong_coeffs : forall m F G, anti F -> anti G ->
  (forall k, (k < DEG)%nat -> F (Z.of_nat k) mod m = G (Z.of_nat k) mod m) -> cong m F G.
Proof.
  intros m F G HF HG H. unfold cong. apply (antiper_mod_eq m DEG); auto; [apply DEG_pos|].
  intros k Hk. replace k with (Z.of_nat (Z.to_nat k)) by lia. apply H. lia.
Qed.

Lemma E_at : forall a k, (k < DEG)%nat -> E a (Z.of_nat k) = at_ a k.
Proof. intros. apply ext_nat. assumption. Qed.

Lemma mod_mod_divide : forall x m M, m <> 0 -> (m | M) -> (x mod M) mod m = x mod m.
Proof.
  intros x m M Hm [q ->].
  destruct (Z.eq_dec q 0) as [->|Hq]; [rewrite Z.mul_0_l, Zmod_0_r; reflexivity|].
  rewrite (Z.mod_eq x (q * m)) by nia.
  replace (x - q * m * (x / (q * m))) with (x + (- (q * (x / (q * m)))) * m) by lia.
  apply Z.mod_add. exact Hm.
Qed.

Lemma u16_mod : forall x m, m <> 0 -> (m | 65536) -> u16 x mod m = x mod m.
Proof. intros. apply mod_mod_divide; assumption. Qed.

Section Mod.
  Variable m : Z.
  Hypothesis Hm : m <> 0.
  Hypothesis Hd : (m | 65536).

  Lemma E_padd : forall a b, length a = DEG -> length b = DEG ->
    cong m (E (padd a b)) (fun k => E a k + E b k).
  Proof.
    intros a b Ha Hb. apply cong_coeffs; [apply E_anti|apply add_anti; apply E_anti|].
    intros k Hk. rewrite !E_at by exact Hk. unfold padd. rewrite map2_at by lia.
    apply u16_mod; assumption.
  Qed.

  Lemma E_psub : forall a b, length a = DEG -> length b = DEG ->
    cong m (E (psub a b)) (fun k => E a k - E b k).
  Proof.
    intros a b Ha Hb. apply cong_coeffs; [apply E_anti|apply sub_anti; apply E_anti|].
    intros k Hk. rewrite !E_at by exact Hk. unfold psub. rewrite map2_at by lia.
    apply u16_mod; assumption.
  Qed.

  Lemma E_pmul : forall a b, cong m (E (pmul a b)) (star (E a) (E b)).
  Proof.
    intros a b. apply cong_coeffs; [apply E_anti|apply star_anti; apply E_anti|].
    intros k Hk. rewrite E_at by exact Hk. unfold pmul. rewrite pmul_n_spec by exact Hk.
    rewrite u16_mod by assumption. rewrite negacyclic_nconv by exact Hk. unfold star, E. reflexivity.
  Qed.

  Lemma E_pzero : cong m (E pzero) (fun _ => 0).
  Proof.
    apply cong_coeffs; [apply E_anti|apply zero_anti|].
    intros k Hk. rewrite E_at by exact Hk. rewrite at_pzero. reflexivity.
  Qed.

  Lemma E_map_mod : forall a M, length a = DEG -> (m | M) ->
    cong m (E (map (fun x => x mod M) a)) (E a).
  Proof.
    intros a M Ha HM. apply cong_coeffs; try apply E_anti.
    intros k Hk. rewrite !E_at by exact Hk. rewrite map_at by lia.
    apply mod_mod_divide; assumption.
  Qed.
End Mod.

(** Equality of well-formed polynomials is congruence modulo 2^16. *)
Lemma wf_eq : forall a b, wf_poly a -> wf_poly b -> cong 65536 (E a) (E b) -> a = b.
Proof.
  intros a b [La Ra] [Lb Rb] H. apply poly_ext; [congruence|].
  intros k Hk. specialize (H (Z.of_nat k)). rewrite La in Hk.
  rewrite !E_at in H by exact Hk.
  rewrite !Z.mod_small in H; [exact H|apply at_u16; exact Rb|apply at_u16; exact Ra].
Qed.

Lemma d16 : (65536 | 65536). Proof. exists 1. reflexivity. Qed.
Lemma d13 : (8192 | 65536). Proof. exists 8. reflexivity. Qed.
Lemma d10 : (1024 | 65536). Proof. exists 64. reflexivity. Qed.
Lemma d10_13 : (1024 | 8192). Proof. exists 8. reflexivity. Qed.

(** ** Ring laws of the model operations *)
Lemma pmul_comm : forall a b, pmul a b = pmul b a.
Proof.
  intros a b. apply wf_eq; try apply pmul_wf.
  eapply cong_trans; [apply E_pmul; [lia|apply d16]|].
  eapply cong_trans; [|apply cong_sym, E_pmul; [lia|apply d16]].
  intro k. unfold star. rewrite nconv_comm by apply E_anti. reflexivity.
Qed.

Lemma pmul_assoc : forall a b c, pmul (pmul a b) c = pmul a (pmul b c).
Proof.
  intros a b c. apply wf_eq; try apply pmul_wf.
  eapply cong_trans; [apply E_pmul; [lia|apply d16]|].
  eapply cong_trans; [apply cong_star; [apply E_pmul; [lia|apply d16]|apply cong_refl]|].
  apply cong_sym.
  eapply cong_trans; [apply E_pmul; [lia|apply d16]|].
  eapply cong_trans; [apply cong_star; [apply cong_refl|apply E_pmul; [lia|apply d16]]|].
  apply cong_sym. intro k. unfold star. rewrite nconv_assoc by apply E_anti. reflexivity.
Qed.

Lemma pmul_add_r : forall a b c, wf_poly b -> wf_poly c ->
  pmul a (padd b c) = padd (pmul a b) (pmul a c).
Proof.
  intros a b c Hb Hc. apply wf_eq; [apply pmul_wf|apply padd_wf; apply pmul_wf|].
  eapply cong_trans; [apply E_pmul; [lia|apply d16]|].
  eapply cong_trans; [apply cong_star; [apply cong_refl|apply E_padd; [lia|apply d16|apply Hb|apply Hc]]|].
  apply cong_sym.
  eapply cong_trans; [apply E_padd; [lia|apply d16|apply pmul_wf|apply pmul_wf]|].
  eapply cong_trans; [apply cong_add; apply E_pmul; [lia|apply d16|lia|apply d16]|].
  intro k. unfold star. rewrite nconv_add_r. reflexivity.
Qed.
