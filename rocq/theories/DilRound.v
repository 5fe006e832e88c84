(** * DilRound: rounding and hints on vectors. *)
From Coq Require Import ZArith List Lia Bool.
From Verif Require Import Base Bits SaberPoly Ring SaberRing DilArith DilNtt DilNttProof DilNttEval DilNttSpec
  DilPoly DilPack DilCodec DilCodec2 DilHint DilOps.
Import ListNotations.
Open Scope Z_scope.
Local Opaque root positions.

(** [vec4] coefficient by coefficient. *)
Lemma vec4_at : forall P v, vec4 P v <->
  vec (fun a => length a = 256%nat /\ forall p, (p < 256)%nat -> P (at_ a p)) v.
Proof.
  intros P v. unfold vec4, vec. split; intros [L V]; (split; [exact L|]).
  - intros i Hi. rewrite Forall_forall in V. destruct (V (vat v i)) as [La Fa]; [apply nth_In; lia|].
    split; [exact La|]. apply (pol_Forall P _ La). exact Fa.
  - apply Forall_forall. intros a Ha. destruct (In_nth v a [] Ha) as (i & Hi & <-).
    rewrite L in Hi. destruct (V i Hi) as [La Pa]. split; [exact La|]. apply (pol_Forall P _ La). exact Pa.
Qed.
Lemma vec4_pol : forall (P : Z -> Prop) B v, (forall x, P x -> - B <= x <= B) -> vec4 P v -> vec (pol B) v.
Proof.
  intros P B v H V. apply vec4_at in V. eapply vec_impl; [|exact V]. intros a [L F]. split; [exact L|].
  intros p Hp. apply H. apply F. exact Hp.
Qed.
Lemma vec4_impl : forall (P R : Z -> Prop) v, (forall x, P x -> R x) -> vec4 P v -> vec4 R v.
Proof.
  intros P R v H [L F]. split; [exact L|]. eapply Forall_impl; [|exact F]. intros a [La Fa]. split; [exact La|].
  eapply Forall_impl; [|exact Fa]. exact H.
Qed.

(** Splitting functions on polynomials and vectors. *)
Lemma poly_split_ok : forall (f : Z -> crun (Z * Z)) (P R : Z -> Prop) (S : Z -> Z -> Z -> Prop) a, std a ->
  (forall x, 0 <= x < Q -> exists x1 x0, f x = CRet (x1, x0) /\ P x1 /\ R x0 /\ S x x1 x0) ->
  exists l, mapM f a = CRet l /\ length l = 256%nat /\
    (forall p, (p < 256)%nat -> P (at_ (map fst l) p) /\ R (at_ (map snd l) p) /\ S (at_ a p) (at_ (map fst l) p) (at_ (map snd l) p)).
Proof.
  intros f P R S a [L A] H.
  destruct (mapM_total 0 (0, 0) f (fun p y => P (fst y) /\ R (snd y) /\ S (at_ a p) (fst y) (snd y)) a) as (l & E & Ll & W).
  { rewrite L. intros p Hp. destruct (H (at_ a p) (A p Hp)) as (x1 & x0 & Ex & X). exists (x1, x0). split; [exact Ex|exact X]. }
  exists l. rewrite L in *. split; [exact E|]. split; [exact Ll|]. intros p Hp. specialize (W p Hp).
  unfold at_ at 1 2 4 5. rewrite !(nth_indep _ 0 (fst (0, 0))) by (rewrite map_length; lia).
  rewrite map_nth. rewrite !(nth_indep (map snd l) (fst (0,0)) (snd (0, 0))) by (rewrite map_length; lia).
  rewrite map_nth. exact W.
Qed.
Lemma vec_split_ok : forall (f : Z -> crun (Z * Z)) (P R : Z -> Prop) (S : Z -> Z -> Z -> Prop) v, vec std v ->
  (forall x, 0 <= x < Q -> exists x1 x0, f x = CRet (x1, x0) /\ P x1 /\ R x0 /\ S x x1 x0) ->
  exists l, mapM (fun a => do l <- mapM f a ;; CRet (map fst l, map snd l)) v = CRet l /\
    vec4 P (map fst l) /\ vec4 R (map snd l) /\
    (forall i, (i < 4)%nat -> forall p, (p < 256)%nat ->
       S (at_ (vat v i) p) (at_ (vat (map fst l) i) p) (at_ (vat (map snd l) i) p)).
Proof.
  intros f P R S v [L V] H.
  destruct (mapM_total [] ([], []) (fun a => do l <- mapM f a ;; CRet (map fst l, map snd l))
    (fun i y => length (fst y) = 256%nat /\ length (snd y) = 256%nat /\
       forall p, (p < 256)%nat -> P (at_ (fst y) p) /\ R (at_ (snd y) p) /\ S (at_ (vat v i) p) (at_ (fst y) p) (at_ (snd y) p)) v)
    as (l & E & Ll & W).
  { rewrite L. intros i Hi. destruct (poly_split_ok f P R S (vat v i) (V i Hi) H) as (l & El & Ll & Pl).
    exists (map fst l, map snd l). unfold vat in El. rewrite El. cbn [cbind fst snd]. rewrite !map_length. auto. }
  rewrite L in *.
  assert (V1 : forall i, vat (map fst l) i = fst (nth i l ([], []))) by (intro i; apply (map_nth fst l ([], []) i)).
  assert (V2 : forall i, vat (map snd l) i = snd (nth i l ([], []))) by (intro i; apply (map_nth snd l ([], []) i)).
  exists l. split; [exact E|]. split; [|split].
  - apply vec4_at. split; [rewrite map_length; exact Ll|]. intros i Hi. rewrite V1. destruct (W i Hi) as (A & B & C).
    split; [exact A|]. intros p Hp. apply C. exact Hp.
  - apply vec4_at. split; [rewrite map_length; exact Ll|]. intros i Hi. rewrite V2. destruct (W i Hi) as (A & B & C).
    split; [exact B|]. intros p Hp. apply C. exact Hp.
  - intros i Hi p Hp. rewrite V1, V2. apply (W i Hi). exact Hp.
Qed.

Lemma vec_power2round_ok : forall v, vec std v ->
  exists v1 v0, polyveck_power2round v = CRet (v1, v0) /\ vec4 t1_range v1 /\ vec4 t0_range v0 /\
    (forall i, (i < 4)%nat -> forall p, (p < 256)%nat -> at_ (vat v i) p = at_ (vat v1 i) p * 8192 + at_ (vat v0 i) p).
Proof.
  intros v V. unfold polyveck_power2round, poly_power2round.
  destruct (vec_split_ok power2round t1_range t0_range (fun a a1 a0 => a = a1 * 8192 + a0) v V) as (l & -> & V1 & V0 & S).
  { intros x Hx. destruct (power2round_ok x Hx) as (x1 & x0 & E & A & B & C). exists x1, x0. unfold t1_range, t0_range. auto. }
  cbn [cbind]. eauto 10.
Qed.
(** High parts. *)
Definition high_range (x : Z) : Prop := 0 <= x < 44.
Lemma vec_decompose_ok : forall v, vec std v ->
  exists v1 v0, polyveck_decompose v = CRet (v1, v0) /\ vec4 high_range v1 /\ vec4 (fun x => - GAMMA2 <= x <= GAMMA2) v0 /\
    (forall i, (i < 4)%nat -> forall p, (p < 256)%nat ->
       decomposed (at_ (vat v i) p) (at_ (vat v1 i) p) (at_ (vat v0 i) p)).
Proof.
  intros v V. unfold polyveck_decompose, poly_decompose.
  destruct (vec_split_ok decompose high_range (fun x => - GAMMA2 <= x <= GAMMA2) decomposed v V) as (l & -> & V1 & V0 & S).
  { intros x Hx. destruct (decompose_ok x Hx) as (x1 & x0 & E & A). exists x1, x0. split; [exact E|].
    unfold high_range, decomposed, GAMMA2 in *. lia. }
  cbn [cbind]. eauto 10.
Qed.

Lemma zipM_exact : forall {X Y W} (f : X -> Y -> crun W) dx dy dw a b r, length a = length r -> length b = length r ->
  (forall i, (i < length r)%nat -> f (nth i a dx) (nth i b dy) = CRet (nth i r dw)) -> zipM f a b = CRet r.
Proof.
  intros X Y W f dx dy dw a. induction a as [|x a IH]; intros b r La Lb H.
  - destruct r; [reflexivity|discriminate La].
  - destruct r as [|z r]; [discriminate La|]. destruct b as [|y b]; [discriminate Lb|]. cbn [zipM].
    pose proof (H O ltac:(cbn; lia)) as H0. cbn [nth] in H0. rewrite H0. cbn [cbind].
    rewrite (IH b r); [reflexivity|cbn in La; lia|cbn in Lb; lia|].
    intros i Hi. apply (H (S i)). cbn. lia.
Qed.
Lemma vec_use_hint_eq : forall u h w, vec std u -> vec (fun a => length a = 256%nat) h -> vec (fun a => length a = 256%nat) w ->
  (forall i, (i < 4)%nat -> forall p, (p < 256)%nat -> use_hint (at_ (vat u i) p) (at_ (vat h i) p) = CRet (at_ (vat w i) p)) ->
  polyveck_use_hint u h = CRet w.
Proof.
  intros u h w [Lu U] [Lh Hh] [Lw W] H. unfold polyveck_use_hint. apply (zipM_exact _ [] [] []); try congruence.
  rewrite Lw. intros i Hi. unfold poly_use_hint.
  apply (zipM_exact use_hint 0 0 0); fold (vat u i) (vat h i) (vat w i);
    try (rewrite (W i Hi)); try apply (U i Hi); try apply (Hh i Hi). intros p Hp. apply (H i Hi p Hp).
Qed.
Lemma vec_use_hint_ok : forall u h, vec std u -> vec (fun a => length a = 256%nat) h ->
  exists w, polyveck_use_hint u h = CRet w /\ vec4 high_range w.
Proof.
  intros u h U V.
  destruct (vec_zipM poly_use_hint std (fun a => length a = 256%nat)
    (fun a => length a = 256%nat /\ forall p, (p < 256)%nat -> high_range (at_ a p)) (fun _ _ _ => True) u h) as (w & E & W & _); auto.
  - intros a b [La A] Lb. destruct (pol_zipM use_hint (fun _ _ z => high_range z) a b La Lb) as (r & E & Lr & R).
    { intros p Hp. destruct (use_hint_ok (at_ a p) (at_ b p) (A p Hp)) as (y & Ey & Hy). eauto. }
    exists r. auto.
  - exists w. split; [exact E|]. apply vec4_at. exact W.
Qed.

(** ** The hints of a signature *)
Lemma at_map2 : forall (f : Z -> Z -> Z) a b p, length a = length b -> (p < length a)%nat ->
  at_ (map2 f a b) p = f (at_ a p) (at_ b p).
Proof.
  induction a as [|x a IH]; intros b p L Hp; [cbn in Hp; lia|]. destruct b as [|y b]; [discriminate L|].
  destruct p; [reflexivity|]. apply (IH b p); cbn in *; lia.
Qed.
Lemma map2_length' : forall {A B C} (f : A -> B -> C) a b, length a = length b -> length (map2 f a b) = length a.
Proof. induction a as [|x a IH]; intros [|y b] L; try discriminate L; [reflexivity|]. cbn. f_equal. apply IH. cbn in L. lia. Qed.

Lemma sum_bits : forall row n k, length row = n -> Forall bit row ->
  zlist_sum row = Z.of_nat (length (filter (fun j => negb (at_ row (j - k) =? 0)) (seq k n))).
Proof.
  induction row as [|x row IH]; intros n k L F; subst n; [reflexivity|].
  inversion F as [|? ? Bx Fr]; subst. cbn [length seq filter zlist_sum fold_right]. rewrite Nat.sub_diag.
  change (at_ (x :: row) 0) with x.
  assert (E : filter (fun j => negb (at_ (x :: row) (j - k) =? 0)) (seq (S k) (length row)) =
              filter (fun j => negb (at_ row (j - S k) =? 0)) (seq (S k) (length row))).
  { apply filter_ext_in. intros j Hj. apply in_seq in Hj.
    replace (j - k)%nat with (S (j - S k)) by lia. reflexivity. }
  rewrite E. fold (zlist_sum row). rewrite (IH (length row) (S k) eq_refl Fr).
  destruct Bx as [-> | ->]; cbn [Z.eqb negb length]; lia.
Qed.
Local Transparent positions.
Lemma sum_positions : forall row, length row = 256%nat -> Forall bit row ->
  zlist_sum row = Z.of_nat (length (positions row)).
Proof.
  intros row L F. rewrite (sum_bits row 256 0 L F). unfold positions. generalize (seq 0 256). intro l.
  rewrite (filter_ext (fun j => negb (at_ row (j - 0) =? 0)) (fun j => negb (at_ row j =? 0)));
    [reflexivity|intro j; rewrite Nat.sub_0_r; reflexivity].
Qed.
Local Opaque positions.

Lemma vec_make_hint_ok : forall v0 v1, vec (fun a => length a = 256%nat) v0 -> vec (fun a => length a = 256%nat) v1 ->
  exists h n, polyveck_make_hint v0 v1 = (h, n) /\ length h = 4%nat /\ hint_vec h /\
    n = Z.of_nat (length (flat_map positions h)) /\
    (forall i, (i < 4)%nat -> forall p, (p < 256)%nat -> at_ (vat h i) p = make_hint (at_ (vat v0 i) p) (at_ (vat v1 i) p)).
Proof.
  intros v0 v1 [L0 V0] [L1 V1].
  destruct v0 as [|a0 [|a1 [|a2 [|a3 [|? ?]]]]]; try discriminate L0.
  destruct v1 as [|b0 [|b1 [|b2 [|b3 [|? ?]]]]]; try discriminate L1.
  pose proof (V0 0%nat ltac:(lia)) as A0. pose proof (V0 1%nat ltac:(lia)) as A1.
  pose proof (V0 2%nat ltac:(lia)) as A2. pose proof (V0 3%nat ltac:(lia)) as A3.
  pose proof (V1 0%nat ltac:(lia)) as B0. pose proof (V1 1%nat ltac:(lia)) as B1.
  pose proof (V1 2%nat ltac:(lia)) as B2. pose proof (V1 3%nat ltac:(lia)) as B3.
  cbn [vat nth] in *. clear V0 V1 L0 L1.
  assert (G : forall a b, length a = 256%nat -> length b = 256%nat ->
    length (map2 make_hint a b) = 256%nat /\ Forall bit (map2 make_hint a b)).
  { intros a b La Lb. assert (L : length (map2 make_hint a b) = 256%nat) by (rewrite map2_length'; congruence).
    split; [exact L|]. apply (pol_Forall bit _ L). intros p Hp. rewrite at_map2 by lia. apply make_hint_bit. }
  unfold polyveck_make_hint, poly_make_hint. cbn [map2 map fst snd].
  eexists; eexists; split; [reflexivity|]. split; [reflexivity|]. split; [|split].
  - unfold hint_vec. repeat constructor; apply G; assumption.
  - cbn [flat_map]. rewrite !app_length. unfold zlist_sum at 1. cbn [fold_right].
    rewrite !sum_positions by (apply G; assumption). cbn [length]. lia.
  - intros i Hi p Hp. destruct i as [|[|[|[|i]]]]; [| | | |lia]; cbn [vat nth]; apply at_map2; lia.
Qed.
