(** * DilOps: what the polynomial and vector operations compute. *)
From Coq Require Import ZArith List Lia Bool.
From Verif Require Import Base Bits SaberPoly Ring SaberRing DilArith DilNtt DilNttProof DilNttEval DilNttSpec DilPoly.
Import ListNotations.
Open Scope Z_scope.
Local Opaque root.

Lemma mapM_total : forall {X Y} (dx : X) (dy : Y) (f : X -> crun Y) (P : nat -> Y -> Prop) l,
  (forall i, (i < length l)%nat -> exists y, f (nth i l dx) = CRet y /\ P i y) ->
  exists l', mapM f l = CRet l' /\ length l' = length l /\ (forall i, (i < length l)%nat -> P i (nth i l' dy)).
Proof.
  intros X Y dx dy f P l. revert P. induction l as [|x l IH]; intros P H.
  - exists []. cbn. repeat split; auto; intros; lia.
  - destruct (H O) as (y & E & Py); [cbn; lia|]. cbn [nth] in E.
    destruct (IH (fun i => P (S i))) as (l' & E' & L & Q').
    { intros i Hi. apply (H (S i)). cbn. lia. }
    exists (y :: l'). cbn [mapM]. rewrite E. cbn [cbind]. rewrite E'. cbn [cbind].
    split; [reflexivity|]. split; [cbn; lia|]. intros [|i] Hi; cbn; [exact Py|]. apply Q'. cbn in Hi. lia.
Qed.
Lemma zipM_total : forall {X Y W} (dx : X) (dy : Y) (dw : W) (f : X -> Y -> crun W) (P : nat -> W -> Prop) a b,
  length a = length b ->
  (forall i, (i < length a)%nat -> exists y, f (nth i a dx) (nth i b dy) = CRet y /\ P i y) ->
  exists l', zipM f a b = CRet l' /\ length l' = length a /\ (forall i, (i < length a)%nat -> P i (nth i l' dw)).
Proof.
  intros X Y W dx dy dw f P a. revert P. induction a as [|x a IH]; intros P [|y b] L H; try discriminate L.
  - exists []. cbn. repeat split; auto; intros; lia.
  - destruct (H O) as (w & E & Pw); [cbn; lia|]. cbn [nth] in E.
    destruct (IH (fun i => P (S i)) b) as (l' & E' & L' & Q'); [cbn in L; lia| |].
    { intros i Hi. apply (H (S i)). cbn. lia. }
    exists (w :: l'). cbn [zipM]. rewrite E. cbn [cbind]. rewrite E'. cbn [cbind].
    split; [reflexivity|]. split; [cbn; lia|]. intros [|i] Hi; cbn; [exact Pw|]. apply Q'. cbn in Hi. lia.
Qed.

(** ** Polynomials: 256 coefficients bounded by [B]. *)
Definition pol (B : Z) (a : poly) : Prop := length a = 256%nat /\ bnd B a.

Lemma pol_mapM : forall (f : Z -> crun Z) (R : Z -> Z -> Prop) a, length a = 256%nat ->
  (forall p, (p < 256)%nat -> exists y, f (at_ a p) = CRet y /\ R (at_ a p) y) ->
  exists r, mapM f a = CRet r /\ length r = 256%nat /\ (forall p, (p < 256)%nat -> R (at_ a p) (at_ r p)).
Proof.
  intros f R a L H. destruct (mapM_total 0 0 f (fun p y => R (at_ a p) y) a) as (r & E & Lr & P).
  { rewrite L. exact H. } exists r. rewrite L in *. auto.
Qed.
Lemma pol_zipM : forall (f : Z -> Z -> crun Z) (R : Z -> Z -> Z -> Prop) a b, length a = 256%nat -> length b = 256%nat ->
  (forall p, (p < 256)%nat -> exists y, f (at_ a p) (at_ b p) = CRet y /\ R (at_ a p) (at_ b p) y) ->
  exists r, zipM f a b = CRet r /\ length r = 256%nat /\ (forall p, (p < 256)%nat -> R (at_ a p) (at_ b p) (at_ r p)).
Proof.
  intros f R a b L L' H. destruct (zipM_total 0 0 0 f (fun p y => R (at_ a p) (at_ b p) y) a b) as (r & E & Lr & P).
  { congruence. } { rewrite L. exact H. } exists r. rewrite L in *. auto.
Qed.

(** A bound on what [reduce32] returns. *)
Definition REDB : Z := 6283009.

Lemma poly_reduce_ok : forall a, pol 2143289343 a ->
  exists r, poly_reduce a = CRet r /\ pol REDB r /\ (forall p, (p < 256)%nat -> eqq (at_ r p) (at_ a p)).
Proof.
  intros a [L B]. destruct (pol_mapM reduce32 (fun x y => - REDB <= y <= REDB /\ eqq y x) a L) as (r & E & Lr & P).
  { intros p Hp. specialize (B p Hp). destruct (reduce32_ok (at_ a p)) as (y & Ey & Hy & Cy); [lia|].
    exists y. unfold REDB. split; [exact Ey|]. split; [lia|exact Cy]. }
  exists r. split; [exact E|]. split; [split; [exact Lr|]|]; intros p Hp; apply P; exact Hp.
Qed.
Lemma poly_caddq_ok : forall a, pol (Q - 1) a ->
  exists r, poly_caddq a = CRet r /\ length r = 256%nat /\
    (forall p, (p < 256)%nat -> 0 <= at_ r p < Q /\ eqq (at_ r p) (at_ a p)).
Proof.
  intros a [L B]. apply (pol_mapM caddq (fun x y => 0 <= y < Q /\ eqq y x) a L).
  intros p Hp. specialize (B p Hp). apply caddq_range. lia.
Qed.
Lemma poly_add_ok : forall a b A B, pol A a -> pol B b -> A + B < 2147483648 ->
  exists r, poly_add a b = CRet r /\ pol (A + B) r /\ (forall p, (p < 256)%nat -> at_ r p = at_ a p + at_ b p).
Proof.
  intros a b A B [L H] [L' H'] HB.
  destruct (pol_zipM (fun x y => chk32 (x + y)) (fun x y r => r = x + y) a b L L') as (r & E & Lr & P).
  { intros p Hp. specialize (H p Hp). specialize (H' p Hp). eexists. split; [apply chk32_ok; unfold in32; lia|reflexivity]. }
  exists r. split; [exact E|]. split; [split; [exact Lr|]|exact P].
  intros p Hp. rewrite P by exact Hp. specialize (H p Hp). specialize (H' p Hp). lia.
Qed.
Lemma poly_sub_ok : forall a b A B, pol A a -> pol B b -> A + B < 2147483648 ->
  exists r, poly_sub a b = CRet r /\ pol (A + B) r /\ (forall p, (p < 256)%nat -> at_ r p = at_ a p - at_ b p).
Proof.
  intros a b A B [L H] [L' H'] HB.
  destruct (pol_zipM (fun x y => chk32 (x - y)) (fun x y r => r = x - y) a b L L') as (r & E & Lr & P).
  { intros p Hp. specialize (H p Hp). specialize (H' p Hp). eexists. split; [apply chk32_ok; unfold in32; lia|reflexivity]. }
  exists r. split; [exact E|]. split; [split; [exact Lr|]|exact P].
  intros p Hp. rewrite P by exact Hp. specialize (H p Hp). specialize (H' p Hp). lia.
Qed.
Lemma poly_shiftl_ok : forall a, length a = 256%nat -> (forall p, (p < 256)%nat -> 0 <= at_ a p < 1024) ->
  exists r, poly_shiftl a = CRet r /\ pol Q r /\ (forall p, (p < 256)%nat -> at_ r p = at_ a p * 8192).
Proof.
  intros a L H. destruct (pol_mapM (fun x => shl32 x DD) (fun x r => r = x * 8192) a L) as (r & E & Lr & P).
  { intros p Hp. specialize (H p Hp). eexists. split; [|reflexivity]. unfold shl32, DD.
    destruct (Z.ltb_spec (at_ a p) 0); [lia|]. change (2 ^ 13) with 8192. apply chk32_ok. unfold in32. lia. }
  exists r. split; [exact E|]. split; [split; [exact Lr|]|exact P].
  intros p Hp. rewrite P by exact Hp. specialize (H p Hp). unfold Q. lia.
Qed.
Lemma poly_pointwise_ok : forall a b, pol (9 * Q) a -> pol (9 * Q) b ->
  exists r, poly_pointwise_montgomery a b = CRet r /\ pol Q r /\
    (forall p, (p < 256)%nat -> eqq (at_ r p * 4294967296) (at_ a p * at_ b p)).
Proof.
  intros a b [L H] [L' H'].
  destruct (pol_zipM (fun x y => montgomery_reduce (x * y))
     (fun x y r => - Q < r < Q /\ eqq (r * 4294967296) (x * y)) a b L L') as (r & E & Lr & P).
  { intros p Hp. specialize (H p Hp). specialize (H' p Hp). apply montgomery_reduce_ok.
    assert (- (81 * Q * Q) <= at_ a p * at_ b p <= 81 * Q * Q) by (unfold Q in *; nia). unfold Q in *. lia. }
  exists r. split; [exact E|]. split; [split; [exact Lr|]|]; intros p Hp; destruct (P p Hp); [lia|assumption].
Qed.

(** [poly_chknorm] compares absolute values. *)
Lemma chknorm_loop_ok : forall B a, Forall (fun x => -1073741824 < x < 1073741824) a ->
  exists b, chknorm_loop B a = CRet b /\ (b = false <-> Forall (fun x => Z.abs x < B) a).
Proof.
  intros B a F. induction F as [|x a Hx F IH].
  - exists false. cbn. split; [reflexivity|]. split; auto.
  - cbn [chknorm_loop]. rewrite chk32_ok by (unfold in32; lia). cbn [cbind].
    assert (T : chk32 (x - Z.land (Z.shiftr x 31) (2 * x)) = CRet (Z.abs x)).
    { destruct (Z.lt_ge_cases x 0).
      - rewrite shiftr31_neg, land_m1 by lia. rewrite chk32_ok by (unfold in32; lia). f_equal. lia.
      - rewrite shiftr31_pos, Z.land_0_l by lia. rewrite chk32_ok by (unfold in32; lia). f_equal. lia. }
    rewrite T. cbn [cbind]. destruct (Z.leb_spec B (Z.abs x)).
    + exists true. split; [reflexivity|]. split; [discriminate|]. intro G. inversion G; subst. lia.
    + destruct IH as (b & E & I). exists b. split; [exact E|]. rewrite I.
      split; intro G; [constructor; auto|inversion G; auto].
Qed.
Lemma pol_Forall : forall (P : Z -> Prop) a, length a = 256%nat ->
  (Forall P a <-> forall p, (p < 256)%nat -> P (at_ a p)).
Proof.
  intros P a L. split.
  - intros F p Hp. rewrite Forall_forall in F. apply F. apply nth_In. lia.
  - intro H. apply Forall_forall. intros x Hx. destruct (in_at a x Hx) as (p & Hp & ->). apply H. lia.
Qed.
Lemma poly_chknorm_ok : forall a B, pol 1073741823 a -> B <= 1047552 ->
  exists b, poly_chknorm a B = CRet b /\ (b = false <-> forall p, (p < 256)%nat -> Z.abs (at_ a p) < B).
Proof.
  intros a B [L H] HB. unfold poly_chknorm. replace ((Q - 1) / 8) with 1047552 by reflexivity.
  destruct (Z.ltb_spec 1047552 B); [lia|].
  destruct (chknorm_loop_ok B a) as (b & E & I).
  { apply pol_Forall; [exact L|]. intros p Hp. specialize (H p Hp). lia. }
  exists b. split; [exact E|]. rewrite I. apply pol_Forall. exact L.
Qed.

(** The transforms. *)
Lemma poly_ntt_ok : forall a, pol Q a ->
  exists v, ntt a = CRet v /\ pol (9 * Q) v /\ (forall p, (p < 256)%nat -> eqq (at_ v p) (ev p a)).
Proof.
  intros a [L B]. destruct (ntt_ok a Q L B) as (v & E & Lv & Bv & P); [unfold Q; lia|].
  exists v. split; [exact E|]. split; [|exact P]. split; [exact Lv|].
  replace (9 * Q) with (Q + 8 * Q) by ring. exact Bv.
Qed.

(** Evaluations determine a polynomial modulo Q. *)
Lemma nth_map_seq : forall (f : nat -> Z) n p, (p < n)%nat -> at_ (map f (seq 0 n)) p = f p.
Proof.
  intros f n p Hp. unfold at_. rewrite (nth_indep _ 0 (f O)) by (rewrite map_length, seq_length; exact Hp).
  rewrite map_nth, seq_nth by exact Hp. reflexivity.
Qed.
Lemma ev_inj : forall a b, (forall p, (p < 256)%nat -> eqq (ev p a) (ev p b)) ->
  forall p, (p < 256)%nat -> eqq (at_ a p) (at_ b p).
Proof.
  intros a b H. set (v := map (fun p => (ev p a * RINV) mod Q) (seq 0 256)).
  assert (Lv : length v = 256%nat) by (unfold v; rewrite map_length, seq_length; reflexivity).
  assert (Vp : forall p, (p < 256)%nat -> at_ v p = (ev p a * RINV) mod Q).
  { intros p Hp. unfold v. apply (nth_map_seq (fun p => (ev p a * RINV) mod Q)). exact Hp. }
  assert (Bv : bnd Q v).
  { intros p Hp. rewrite Vp by exact Hp. pose proof (Z.mod_pos_bound (ev p a * RINV) Q eq_refl). lia. }
  assert (Ev : forall p, (p < 256)%nat -> eqq (at_ v p * 4294967296) (ev p a)).
  { intros p Hp. rewrite Vp by exact Hp. generalize (ev p a). intro e.
    eapply eqq_trans with (y := e * RINV * 4294967296).
    - apply eqq_mul; [|apply eqq_refl]. apply eqq_mod. apply Z.mod_mod. discriminate.
    - replace (e * RINV * 4294967296) with (e * (4294967296 * RINV)) by ring.
      rewrite <- (Z.mul_1_r e) at 2. apply eqq_mul; [apply eqq_refl|apply R_inv]. }
  destruct (invntt_ok v a Lv Bv Ev) as (x & Ex & _ & Px).
  destruct (invntt_ok v b Lv Bv) as (y & Ey & _ & Py).
  { intros p Hp. eapply eqq_trans; [apply Ev; exact Hp|apply H; exact Hp]. }
  rewrite Ex in Ey. injection Ey as <-. intros p Hp.
  eapply eqq_trans; [apply eqq_sym, Px; exact Hp|apply Py; exact Hp].
Qed.

Lemma poly_invntt_ok : forall v, pol Q v ->
  exists a, invntt_tomont v = CRet a /\ pol INVB a /\
    (forall p, (p < 256)%nat -> eqq (ev p a) (at_ v p * 4294967296)).
Proof.
  intros v [L B].
  destruct (ev_surjective (map (fun p => at_ v p * 4294967296) (seq 0 256))) as (f & Lf & Pf).
  { rewrite map_length, seq_length. reflexivity. }
  assert (Ef : forall p, (p < 256)%nat -> eqq (at_ v p * 4294967296) (ev p f)).
  { intros p Hp. specialize (Pf p Hp).
    rewrite (nth_map_seq (fun p => at_ v p * 4294967296)) in Pf by exact Hp. exact Pf. }
  destruct (invntt_ok v f L B Ef) as (a & E & La & Pa).
  exists a. split; [exact E|]. split; [split; [exact La|intros p Hp; apply Pa; exact Hp]|].
  intros p Hp. eapply eqq_trans; [|apply eqq_sym, Ef; exact Hp].
  apply ev_eqq. intros i Hi. apply Pa. exact Hi.
Qed.

(** Evaluation is linear. *)
Lemma ev_add : forall r a b p, (forall i, (i < 256)%nat -> eqq (at_ r i) (at_ a i + at_ b i)) ->
  eqq (ev p r) (ev p a + ev p b).
Proof.
  intros r a b p H. unfold ev. rewrite <- nsum_add. apply nsum_eqq. intros i Hi.
  generalize (root p ^ Z.of_nat i). intro x. rewrite <- Z.mul_add_distr_r.
  apply eqq_mul; [apply H; exact Hi|apply eqq_refl].
Qed.
Lemma ev_sub : forall r a b p, (forall i, (i < 256)%nat -> eqq (at_ r i) (at_ a i - at_ b i)) ->
  eqq (ev p r) (ev p a - ev p b).
Proof.
  intros r a b p H. unfold ev. rewrite <- nsum_sub. apply nsum_eqq. intros i Hi.
  generalize (root p ^ Z.of_nat i). intro x. rewrite <- Z.mul_sub_distr_r.
  apply eqq_mul; [apply H; exact Hi|apply eqq_refl].
Qed.
Lemma ev_scal : forall r c a p, (forall i, (i < 256)%nat -> eqq (at_ r i) (c * at_ a i)) ->
  eqq (ev p r) (c * ev p a).
Proof.
  intros r c a p H. unfold ev. rewrite <- nsum_scal. apply nsum_eqq. intros i Hi.
  generalize (root p ^ Z.of_nat i). intro x. rewrite Z.mul_assoc.
  apply eqq_mul; [apply H; exact Hi|apply eqq_refl].
Qed.

(** ** Vectors of four polynomials *)
Definition vat (v : polyvec) (i : nat) : poly := nth i v [].
Definition vec (P : poly -> Prop) (v : polyvec) : Prop := length v = 4%nat /\ forall i, (i < 4)%nat -> P (vat v i).

Lemma vec_mapM : forall (f : poly -> crun poly) (P P' : poly -> Prop) (R : poly -> poly -> Prop) v,
  (forall a, P a -> exists r, f a = CRet r /\ P' r /\ R a r) -> vec P v ->
  exists w, mapM f v = CRet w /\ vec P' w /\ (forall i, (i < 4)%nat -> R (vat v i) (vat w i)).
Proof.
  intros f P P' R v H [L V].
  destruct (mapM_total [] [] f (fun i y => P' y /\ R (vat v i) y) v) as (w & E & Lw & W).
  { rewrite L. intros i Hi. apply H. apply V. exact Hi. }
  rewrite L in *. exists w. split; [exact E|]. split; [split; [exact Lw|]|]; intros i Hi; apply W; exact Hi.
Qed.
Lemma vec_zipM : forall (f : poly -> poly -> crun poly) (P P1 P' : poly -> Prop) (R : poly -> poly -> poly -> Prop) u v,
  (forall a b, P a -> P1 b -> exists r, f a b = CRet r /\ P' r /\ R a b r) -> vec P u -> vec P1 v ->
  exists w, zipM f u v = CRet w /\ vec P' w /\ (forall i, (i < 4)%nat -> R (vat u i) (vat v i) (vat w i)).
Proof.
  intros f P P1 P' R u v H [L V] [L1 V1].
  destruct (zipM_total [] [] [] f (fun i y => P' y /\ R (vat u i) (vat v i) y) u v) as (w & E & Lw & W).
  { congruence. } { rewrite L. intros i Hi. apply H; [apply V|apply V1]; exact Hi. }
  rewrite L in *. exists w. split; [exact E|]. split; [split; [exact Lw|]|]; intros i Hi; apply W; exact Hi.
Qed.
Lemma vec_impl : forall (P P' : poly -> Prop) v, (forall a, P a -> P' a) -> vec P v -> vec P' v.
Proof. intros P P' v H [L V]. split; auto. Qed.
Lemma pol_le : forall A B a, A <= B -> pol A a -> pol B a.
Proof. intros A B a H [L X]. split; [exact L|]. intros p Hp. specialize (X p Hp). lia. Qed.
Lemma vec_pol_le : forall A B v, A <= B -> vec (pol A) v -> vec (pol B) v.
Proof. intros A B v H. apply vec_impl. intro a. apply pol_le. exact H. Qed.

Lemma vec_reduce_ok : forall v, vec (pol 2143289343) v ->
  exists w, polyvec_reduce v = CRet w /\ vec (pol REDB) w /\
    (forall i, (i < 4)%nat -> forall p, (p < 256)%nat -> eqq (at_ (vat w i) p) (at_ (vat v i) p)).
Proof. intros v. apply (vec_mapM poly_reduce (pol 2143289343) (pol REDB)
  (fun a r => forall p, (p < 256)%nat -> eqq (at_ r p) (at_ a p))). exact poly_reduce_ok. Qed.
(** Standard representatives. *)
Definition std (a : poly) : Prop := length a = 256%nat /\ forall p, (p < 256)%nat -> 0 <= at_ a p < Q.
Lemma std_pol : forall a, std a -> pol Q a.
Proof. intros a [L S]. split; [exact L|]. intros p Hp. specialize (S p Hp). lia. Qed.
Lemma vec_caddq_ok : forall v, vec (pol (Q - 1)) v ->
  exists w, polyvec_caddq v = CRet w /\ vec std w /\
    (forall i, (i < 4)%nat -> forall p, (p < 256)%nat -> eqq (at_ (vat w i) p) (at_ (vat v i) p)).
Proof.
  intros v. apply (vec_mapM poly_caddq (pol (Q - 1)) std
    (fun a r => forall p, (p < 256)%nat -> eqq (at_ r p) (at_ a p))).
  intros a H. destruct (poly_caddq_ok a H) as (r & E & L & P). exists r. split; [exact E|].
  split; [split; [exact L|]|]; intros p Hp; apply P; exact Hp.
Qed.
Lemma vec_ntt_ok : forall v, vec (pol Q) v ->
  exists w, polyvec_ntt v = CRet w /\ vec (pol (9 * Q)) w /\
    (forall i, (i < 4)%nat -> forall p, (p < 256)%nat -> eqq (at_ (vat w i) p) (ev p (vat v i))).
Proof. intros v. apply (vec_mapM ntt (pol Q) (pol (9 * Q))
  (fun a r => forall p, (p < 256)%nat -> eqq (at_ r p) (ev p a))). exact poly_ntt_ok. Qed.
Lemma vec_invntt_ok : forall v, vec (pol Q) v ->
  exists w, polyvec_invntt_tomont v = CRet w /\ vec (pol INVB) w /\
    (forall i, (i < 4)%nat -> forall p, (p < 256)%nat -> eqq (ev p (vat w i)) (at_ (vat v i) p * 4294967296)).
Proof. intros v. apply (vec_mapM invntt_tomont (pol Q) (pol INVB)
  (fun a r => forall p, (p < 256)%nat -> eqq (ev p r) (at_ a p * 4294967296))). exact poly_invntt_ok. Qed.
Lemma vec_add_ok : forall u v A B, vec (pol A) u -> vec (pol B) v -> A + B < 2147483648 ->
  exists w, polyvec_add u v = CRet w /\ vec (pol (A + B)) w /\
    (forall i, (i < 4)%nat -> forall p, (p < 256)%nat -> at_ (vat w i) p = at_ (vat u i) p + at_ (vat v i) p).
Proof.
  intros u v A B U V H. apply (vec_zipM poly_add (pol A) (pol B) (pol (A + B))
    (fun a b r => forall p, (p < 256)%nat -> at_ r p = at_ a p + at_ b p)); auto.
  intros a b Ha Hb. apply poly_add_ok; auto.
Qed.
Lemma vec_sub_ok : forall u v A B, vec (pol A) u -> vec (pol B) v -> A + B < 2147483648 ->
  exists w, polyvec_sub u v = CRet w /\ vec (pol (A + B)) w /\
    (forall i, (i < 4)%nat -> forall p, (p < 256)%nat -> at_ (vat w i) p = at_ (vat u i) p - at_ (vat v i) p).
Proof.
  intros u v A B U V H. apply (vec_zipM poly_sub (pol A) (pol B) (pol (A + B))
    (fun a b r => forall p, (p < 256)%nat -> at_ r p = at_ a p - at_ b p)); auto.
  intros a b Ha Hb. apply poly_sub_ok; auto.
Qed.
Lemma vec_shiftl_ok : forall v,
  vec (fun a => length a = 256%nat /\ forall p, (p < 256)%nat -> 0 <= at_ a p < 1024) v ->
  exists w, polyvec_shiftl v = CRet w /\ vec (pol Q) w /\
    (forall i, (i < 4)%nat -> forall p, (p < 256)%nat -> at_ (vat w i) p = at_ (vat v i) p * 8192).
Proof.
  intros v. apply (vec_mapM poly_shiftl _ (pol Q) (fun a r => forall p, (p < 256)%nat -> at_ r p = at_ a p * 8192)).
  intros a [L H]. apply poly_shiftl_ok; auto.
Qed.
Lemma vec_pointwise_ok : forall c v, pol (9 * Q) c -> vec (pol (9 * Q)) v ->
  exists w, polyvec_pointwise_poly_montgomery c v = CRet w /\ vec (pol Q) w /\
    (forall i, (i < 4)%nat -> forall p, (p < 256)%nat -> eqq (at_ (vat w i) p * 4294967296) (at_ c p * at_ (vat v i) p)).
Proof.
  intros c v C. apply (vec_mapM (poly_pointwise_montgomery c) (pol (9 * Q)) (pol Q)
    (fun a r => forall p, (p < 256)%nat -> eqq (at_ r p * 4294967296) (at_ c p * at_ a p))).
  intros a Ha. apply poly_pointwise_ok; auto.
Qed.
(** A product by a challenge, back from the transform. *)
Lemma vec_cmul_ok : forall cp c v vh, pol (9 * Q) cp -> (forall p, (p < 256)%nat -> eqq (at_ cp p) (ev p c)) ->
  vec (pol (9 * Q)) vh ->
  (forall i, (i < 4)%nat -> forall p, (p < 256)%nat -> eqq (at_ (vat vh i) p) (ev p (vat v i))) ->
  exists w r, polyvec_pointwise_poly_montgomery cp vh = CRet w /\ polyvec_invntt_tomont w = CRet r /\
    vec (pol INVB) r /\
    (forall i, (i < 4)%nat -> forall p, (p < 256)%nat -> eqq (ev p (vat r i)) (ev p c * ev p (vat v i))).
Proof.
  intros cp c v vh Pc Ec Pv Ev. destruct (vec_pointwise_ok cp vh Pc Pv) as (w & E & Pw & W).
  destruct (vec_invntt_ok w Pw) as (r & Er & Pr & R). exists w, r. split; [exact E|]. split; [exact Er|].
  split; [exact Pr|]. intros i Hi p Hp.
  eapply eqq_trans; [apply R; auto|]. eapply eqq_trans; [apply W; auto|].
  apply eqq_mul; [apply Ec; auto|apply Ev; auto].
Qed.

(** ** The matrix product *)
Lemma vec_chknorm_ok : forall v B, vec (pol 1073741823) v -> B <= 1047552 ->
  exists b, polyvec_chknorm v B = CRet b /\
    (b = false <-> forall i, (i < 4)%nat -> forall p, (p < 256)%nat -> Z.abs (at_ (vat v i) p) < B).
Proof.
  intros v B [L V] HB.
  assert (G : forall w, (forall i, (i < length w)%nat -> pol 1073741823 (vat w i)) ->
    exists b, polyvec_chknorm w B = CRet b /\
    (b = false <-> forall i, (i < length w)%nat -> forall p, (p < 256)%nat -> Z.abs (at_ (vat w i) p) < B)).
  { induction w as [|a w IH]; intro H.
    - exists false. split; [reflexivity|]. split; [cbn; intros; lia|reflexivity].
    - cbn [polyvec_chknorm]. destruct (poly_chknorm_ok a B (H O ltac:(cbn; lia)) HB) as (b & E & I).
      rewrite E. cbn [cbind]. destruct b.
      + exists true. split; [reflexivity|]. split; [discriminate|]. intro X. apply I. apply (X O). cbn. lia.
      + destruct IH as (b & E2 & I2). { intros i Hi. apply (H (S i)). cbn. lia. }
        exists b. split; [exact E2|]. rewrite I2. split.
        * intros X [|i] Hi; cbn [vat nth]; [apply I; reflexivity|]. apply X. cbn in Hi. lia.
        * intros X i Hi. apply (X (S i)). cbn. lia. }
  destruct (G v) as (b & E & I); [rewrite L; exact V|]. exists b. rewrite L in I. auto.
Qed.

Lemma row_product_ok : forall u v, vec (pol (9 * Q)) u -> vec (pol (9 * Q)) v ->
  exists w, polyvecl_pointwise_acc_montgomery u v = CRet w /\ pol (4 * Q) w /\
    (forall p, (p < 256)%nat -> eqq (at_ w p * 4294967296)
       (at_ (vat u 0) p * at_ (vat v 0) p + at_ (vat u 1) p * at_ (vat v 1) p +
        at_ (vat u 2) p * at_ (vat v 2) p + at_ (vat u 3) p * at_ (vat v 3) p)).
Proof.
  intros u v [L U] [L' V].
  destruct u as [|u0 [|u1 [|u2 [|u3 [|? ?]]]]]; try discriminate L.
  destruct v as [|v0 [|v1 [|v2 [|v3 [|? ?]]]]]; try discriminate L'.
  pose proof (U 0%nat ltac:(lia)) as U0. pose proof (U 1%nat ltac:(lia)) as U1.
  pose proof (U 2%nat ltac:(lia)) as U2. pose proof (U 3%nat ltac:(lia)) as U3.
  pose proof (V 0%nat ltac:(lia)) as V0. pose proof (V 1%nat ltac:(lia)) as V1.
  pose proof (V 2%nat ltac:(lia)) as V2. pose proof (V 3%nat ltac:(lia)) as V3.
  cbn [vat nth] in *. clear U V L L'.
  cbn [polyvecl_pointwise_acc_montgomery acc_loop].
  destruct (poly_pointwise_ok u0 v0 U0 V0) as (w0 & -> & P0 & E0). cbn [cbind].
  destruct (poly_pointwise_ok u1 v1 U1 V1) as (t1 & -> & P1 & E1). cbn [cbind].
  destruct (poly_add_ok w0 t1 Q Q P0 P1) as (w1 & -> & Q1 & S1); [unfold Q; lia|]. cbn [cbind].
  destruct (poly_pointwise_ok u2 v2 U2 V2) as (t2 & -> & P2 & E2). cbn [cbind].
  destruct (poly_add_ok w1 t2 (Q + Q) Q Q1 P2) as (w2 & -> & Q2 & S2); [unfold Q; lia|]. cbn [cbind].
  destruct (poly_pointwise_ok u3 v3 U3 V3) as (t3 & -> & P3 & E3). cbn [cbind].
  destruct (poly_add_ok w2 t3 (Q + Q + Q) Q Q2 P3) as (w3 & -> & Q3 & S3); [unfold Q; lia|]. cbn [cbind].
  exists w3. split; [reflexivity|]. split; [eapply pol_le; [|exact Q3]; lia|].
  intros p Hp. rewrite S3, S2, S1 by exact Hp. rewrite !Z.mul_add_distr_r.
  repeat apply eqq_add; auto.
Qed.

(** A 4x4 matrix in the transform domain. *)
Definition matrix (mat : list polyvec) : Prop := length mat = 4%nat /\ forall i, (i < 4)%nat -> vec std (nth i mat []).
(** Entry (i, j) of the matrix at the p-th point. *)
Definition mentry (mat : list polyvec) (i j p : nat) : Z := at_ (vat (nth i mat []) j) p.
(** Row [i] of the matrix times [z], evaluated at the p-th point. *)
Definition mrow (mat : list polyvec) (z : polyvec) (i p : nat) : Z :=
  mentry mat i 0 p * ev p (vat z 0) + mentry mat i 1 p * ev p (vat z 1) +
  mentry mat i 2 p * ev p (vat z 2) + mentry mat i 3 p * ev p (vat z 3).

Lemma matrix_product_ok : forall mat z zh, matrix mat -> vec (pol (9 * Q)) zh ->
  (forall i, (i < 4)%nat -> forall p, (p < 256)%nat -> eqq (at_ (vat zh i) p) (ev p (vat z i))) ->
  exists w, polyvec_matrix_pointwise_montgomery mat zh = CRet w /\ vec (pol (4 * Q)) w /\
    (forall i, (i < 4)%nat -> forall p, (p < 256)%nat -> eqq (at_ (vat w i) p * 4294967296) (mrow mat z i p)).
Proof.
  intros mat z zh [L M] Pz Ez. unfold polyvec_matrix_pointwise_montgomery.
  destruct (mapM_total [] [] (fun row => polyvecl_pointwise_acc_montgomery row zh)
    (fun i w => pol (4 * Q) w /\ forall p, (p < 256)%nat -> eqq (at_ w p * 4294967296) (mrow mat z i p)) mat)
    as (w & E & Lw & W).
  { rewrite L. intros i Hi. specialize (M i Hi).
    destruct (row_product_ok (nth i mat []) zh) as (r & Er & Pr & R).
    { eapply vec_impl; [|exact M]. intros a S. apply std_pol in S. eapply pol_le; [|exact S]. unfold Q; lia. }
    { exact Pz. }
    exists r. split; [exact Er|]. split; [exact Pr|]. intros p Hp.
    eapply eqq_trans; [apply R; exact Hp|]. unfold mrow, mentry.
    repeat apply eqq_add; (apply eqq_mul; [apply eqq_refl|apply Ez; [lia|exact Hp]]). }
  rewrite L in *. exists w. split; [exact E|]. split; [split; [exact Lw|]|]; intros i Hi; apply W; exact Hi.
Qed.

(** The whole sequence ntt, matrix product, reduce, inverse ntt. *)
Lemma matrix_mul_ok : forall mat z, matrix mat -> vec (pol Q) z ->
  exists zh w w' r, polyvec_ntt z = CRet zh /\ polyvec_matrix_pointwise_montgomery mat zh = CRet w /\
    polyvec_reduce w = CRet w' /\ polyvec_invntt_tomont w' = CRet r /\ vec (pol INVB) r /\
    (forall i, (i < 4)%nat -> forall p, (p < 256)%nat -> eqq (ev p (vat r i)) (mrow mat z i p)).
Proof.
  intros mat z M Z. destruct (vec_ntt_ok z Z) as (zh & E1 & P1 & R1).
  destruct (matrix_product_ok mat z zh M P1 R1) as (w & E2 & P2 & R2).
  destruct (vec_reduce_ok w) as (w' & E3 & P3 & R3).
  { eapply vec_pol_le; [|exact P2]. unfold Q; lia. }
  destruct (vec_invntt_ok w') as (r & E4 & P4 & R4).
  { eapply vec_pol_le; [|exact P3]. unfold REDB, Q; lia. }
  exists zh, w, w', r. repeat (split; [assumption|]). intros i Hi p Hp.
  eapply eqq_trans; [apply R4; auto|]. eapply eqq_trans; [|apply R2; auto].
  apply eqq_mul; [apply R3; auto|apply eqq_refl].
Qed.
