(** * A64SignOk: the operations of the AArch64 build against those of the CLEAN build. *)
From Coq Require Import ZArith List Lia Bool.
From Verif Require Import Base Bits SaberPoly SaberRing DilArith DilNtt DilNttProof DilNttEval DilNttSpec DilPoly DilPack DilCodec2 DilHint DilOps DilSample DilRound DilSign DilCorrect
  AvxMachine AvxSym AvxSymOk AvxNtt AvxPoly AvxSample AvxSignOk AvxSignOk2 A64Machine A64Ntt A64Elem A64Elem2 A64T1 A64Sample A64Sign.
Import ListNotations.
Open Scope Z_scope.
Local Opaque root mred ntt invntt_tomont ntt64 invntt64 reduce64 caddq64 pointwise64 pointwise64_alias acc64 poly_reduce poly_caddq poly_pointwise_montgomery.

Section Ops.
Variable e : ctx64.
Hypothesis He : ctx64_ok e.
Lemma k_ntt_ok : forall a, pol Q a -> exists v, k_ntt e a = CRet v /\ pol (9 * Q) v /\ (forall p, (p < 256)%nat -> eqq (at_ v p) (ev p a)).
Proof.
  intros a [L B]. destruct He as (H1 & H2 & _). destruct (ntt64_ok (k_v1 e) (k_v2 e) (k_j1 e) (k_j2 e) a Q H1 H2 L) as (r & v & E & Ev & Lr & Br & Cr).
  { unfold Q; lia. } { exact B. } { unfold Q; lia. }
  destruct (poly_ntt_ok a (conj L B)) as (v' & E' & _ & V). rewrite Ev in E'. assert (v' = v) as -> by (clear - E'; injection E' as ->; reflexivity).
  exists r. unfold k_ntt. rewrite E. split; [reflexivity|]. split; [split; [exact Lr|]|].
  - replace (9 * Q) with (Q + 8 * Q) by ring. exact Br.
  - intros p Hp. eapply eqq_trans; [apply Cr|apply V]; exact Hp.
Qed.
Lemma k_invntt_ok : forall a, pol Q a -> exists v, k_invntt e a = CRet v /\ pol (Q - 1) v /\ (forall p, (p < 256)%nat -> eqq (ev p v) (at_ a p * 4294967296)).
Proof.
  intros a [L B]. destruct He as (H1 & H2 & _). destruct (invntt64_ok (k_v1 e) (k_v2 e) (k_j1 e) (k_j2 e) a H1 H2 L B) as (r & c & E & Ec & Lr & P).
  destruct (poly_invntt_ok a (conj L B)) as (c' & E' & _ & V). rewrite Ec in E'. assert (c' = c) as -> by (clear - E'; injection E' as ->; reflexivity).
  exists r. unfold k_invntt. rewrite E. split; [reflexivity|]. split; [split; [exact Lr|]|].
  - intros p Hp. destruct (P p Hp) as [B' _]. unfold Q. lia.
  - intros p Hp. eapply eqq_trans; [|apply V; exact Hp]. apply ev_eqq. intros j Hj. apply P. exact Hj.
Qed.
Lemma k_reduce_ok : forall a, pol 2143289343 a ->
  exists r, k_reduce e a = CRet r /\ pol REDB r /\ (forall p, (p < 256)%nat -> eqq (at_ r p) (at_ a p)).
Proof.
  intros a H. destruct (poly_reduce_ok a H) as (r & E & P). exists r. split; [|exact P]. unfold k_reduce.
  rewrite (reduce64_ok _ _ a r (proj1 He) (proj1 H) E). reflexivity.
Qed.
Lemma k_caddq_ok : forall a, pol (Q - 1) a -> exists r, k_caddq e a = CRet r /\ std r /\ (forall p, (p < 256)%nat -> eqq (at_ r p) (at_ a p)).
Proof.
  intros a H. destruct (poly_caddq_ok a H) as (r & E & L & P). exists r. unfold k_caddq.
  rewrite (caddq64_ok _ _ a r (proj1 He) (proj1 H)); [| |exact E].
  - split; [reflexivity|]. split; [split; [exact L|]|]; intros p Hp; apply P; exact Hp.
  - destruct H as [La B]. apply (pol_Forall in32); [exact La|]. intros p Hp. specialize (B p Hp). unfold in32, Q in *. lia.
Qed.
Lemma k_pointwise_ok : forall a b, pol (9 * Q) a -> pol (9 * Q) b ->
  exists r, k_pointwise e a b = CRet r /\ k_pointwise_in e a b = CRet r /\ pol Q r /\ (forall p, (p < 256)%nat -> eqq (at_ r p * 4294967296) (at_ a p * at_ b p)).
Proof.
  intros a b Ha Hb. destruct (poly_pointwise_ok a b Ha Hb) as (r & E & P). exists r.
  destruct (pointwise64_ok (k_v1 e) (k_j1 e) (k_mem e) a b r (proj1 He)) as [E1 E2]; try assumption.
  { apply He. } { apply Ha. } { apply Hb. }
  unfold k_pointwise, k_pointwise_in. rewrite E1, E2. split; [reflexivity|]. split; [reflexivity|]. exact P.
Qed.
Lemma k_acc_ok : forall u v, vec std u -> vec (pol (9 * Q)) v ->
  exists r, k_acc e u v = CRet r /\ pol Q r /\ (forall p, (p < 256)%nat -> eqq (at_ r p * 4294967296) (dot4 u v p)).
Proof.
  intros u v [Lu U] [Lv V]. unfold k_acc. rewrite acc64_map; [|apply He|apply He|exact Lu|intros i Hi; apply U; exact Hi|exact Lv|intros i Hi; apply V; exact Hi].
  exists (map (fun p => mred (dot4 u v p)) (seq 0 256)). split; [reflexivity|].
  assert (G : forall p, (p < 256)%nat -> - Q < mred (dot4 u v p) < Q /\ eqq (mred (dot4 u v p) * 4294967296) (dot4 u v p)).
  { intros p Hp. apply mred_bound. unfold dot4.
    assert (A : forall i, (i < 4)%nat -> - Q <= at_ (vat u i) p <= Q) by (intros i Hi; pose proof (proj2 (U i Hi) p Hp); unfold Q in *; lia).
    assert (B : forall i, (i < 4)%nat -> - (9 * Q) <= at_ (vat v i) p <= 9 * Q) by (intros i Hi; apply (proj2 (V i Hi) p Hp)).
    pose proof (four_bound _ _ _ _ _ _ _ _ Q (9 * Q) ltac:(unfold Q; lia) ltac:(unfold Q; lia) (A 0%nat ltac:(lia)) (A 1%nat ltac:(lia)) (A 2%nat ltac:(lia)) (A 3%nat ltac:(lia))
      (B 0%nat ltac:(lia)) (B 1%nat ltac:(lia)) (B 2%nat ltac:(lia)) (B 3%nat ltac:(lia))) as FB. unfold Q in *. lia. }
  assert (N : forall p, (p < 256)%nat -> at_ (map (fun p => mred (dot4 u v p)) (seq 0 256)) p = mred (dot4 u v p)).
  { intros p Hp. apply (nth_map_seq (fun p => mred (dot4 u v p))). exact Hp. }
  split; [split|].
  - rewrite map_length, seq_length. reflexivity.
  - intros p Hp. rewrite N by exact Hp. specialize (G p Hp). unfold Q in *. lia.
  - intros p Hp. rewrite N by exact Hp. apply G. exact Hp.
Qed.
(** ** Vectors *)
Definition rel_ntt (a r : poly) : Prop := forall p, (p < 256)%nat -> eqq (at_ r p) (ev p a).
Definition rel_eq (a r : poly) : Prop := forall p, (p < 256)%nat -> eqq (at_ r p) (at_ a p).
Lemma k_vec_ntt : forall v, vec (pol Q) v -> exists vh, mapM (k_ntt e) v = CRet vh /\ transformed v vh.
Proof.
  intros v H. destruct (vec_mapM (k_ntt e) (pol Q) (pol (9 * Q)) rel_ntt v k_ntt_ok H) as (w & E & W & P). exists w. split; [exact E|]. split; [exact W|exact P].
Qed.
Lemma k_vec_reduce : forall v, vec (pol 2143289343) v -> exists w, mapM (k_reduce e) v = CRet w /\ vec (pol REDB) w /\
  (forall i, (i < 4)%nat -> forall p, (p < 256)%nat -> eqq (at_ (vat w i) p) (at_ (vat v i) p)).
Proof. intros v H. exact (vec_mapM (k_reduce e) (pol 2143289343) (pol REDB) rel_eq v k_reduce_ok H). Qed.
Lemma k_vec_caddq : forall v, vec (pol (Q - 1)) v -> exists w, mapM (k_caddq e) v = CRet w /\ vec std w /\
  (forall i, (i < 4)%nat -> forall p, (p < 256)%nat -> eqq (at_ (vat w i) p) (at_ (vat v i) p)).
Proof. intros v H. exact (vec_mapM (k_caddq e) (pol (Q - 1)) std rel_eq v k_caddq_ok H). Qed.
Lemma k_vec_invntt : forall v, vec (pol Q) v -> exists w, mapM (k_invntt e) v = CRet w /\ vec (pol (Q - 1)) w /\
  (forall i, (i < 4)%nat -> forall p, (p < 256)%nat -> eqq (ev p (vat w i)) (at_ (vat v i) p * 4294967296)).
Proof. intros v H. exact (vec_mapM (k_invntt e) (pol Q) (pol (Q - 1)) (fun a r => forall p, (p < 256)%nat -> eqq (ev p r) (at_ a p * 4294967296)) v k_invntt_ok H). Qed.
Lemma k_vec_pointwise : forall a v, pol (9 * Q) a -> vec (pol (9 * Q)) v -> exists w, mapM (k_pointwise e a) v = CRet w /\ mapM (k_pointwise_in e a) v = CRet w /\ vec (pol Q) w /\
  (forall i, (i < 4)%nat -> forall p, (p < 256)%nat -> eqq (at_ (vat w i) p * 4294967296) (at_ a p * at_ (vat v i) p)).
Proof.
  intros a v Ha H. destruct (vec_mapM (k_pointwise e a) (pol (9 * Q)) (pol Q) (fun b r => forall p, (p < 256)%nat -> eqq (at_ r p * 4294967296) (at_ a p * at_ b p))) with (v := v) as (w & E & W & P); [|exact H|].
  - intros b Hb. destruct (k_pointwise_ok a b Ha Hb) as (r & E & _ & P). exists r. split; [exact E|exact P].
  - exists w. split; [exact E|]. split; [|split; assumption]. rewrite <- E. symmetry. apply mapM_ext. intros b Ib.
    destruct H as [L V]. apply (In_nth _ _ []) in Ib. destruct Ib as (i & Hi & <-). rewrite L in Hi.
    destruct (k_pointwise_ok a (nth i v []) Ha (V i Hi)) as (r & E1 & E2 & _). rewrite E1, E2. reflexivity.
Qed.
(** c times a transformed vector, back in coefficients. *)
Lemma k_vec_cmul : forall cp c v vh, pol (9 * Q) cp -> (forall p, (p < 256)%nat -> eqq (at_ cp p) (ev p c)) -> transformed v vh ->
  exists w r, mapM (k_pointwise e cp) vh = CRet w /\ mapM (k_invntt e) w = CRet r /\ vec (pol (Q - 1)) r /\
    (forall i, (i < 4)%nat -> forall p, (p < 256)%nat -> eqq (ev p (vat r i)) (ev p c * ev p (vat v i))).
Proof.
  intros cp c v vh Pc Ec [Pv Ev]. destruct (k_vec_pointwise cp vh Pc Pv) as (w & E & _ & Pw & W).
  destruct (k_vec_invntt w Pw) as (r & E' & Pr & R). exists w, r. split; [exact E|]. split; [exact E'|]. split; [exact Pr|].
  intros i Hi p Hp. eapply eqq_trans; [apply R; assumption|]. eapply eqq_trans; [apply W; assumption|].
  apply eqq_mul; [apply Ec; exact Hp|apply Ev; assumption].
Qed.
Lemma k_matrix_product : forall mat z zh, matrix mat -> transformed z zh ->
  exists w, k_matrix_mul e mat zh = CRet w /\ vec (pol Q) w /\
    (forall i, (i < 4)%nat -> forall p, (p < 256)%nat -> eqq (at_ (vat w i) p * 4294967296) (mrow mat z i p)).
Proof.
  intros mat z zh [Lm M] [Pz Ez]. unfold k_matrix_mul.
  destruct (mapM_total [] [] (fun row => k_acc e row zh)
    (fun i w => pol Q w /\ forall p, (p < 256)%nat -> eqq (at_ w p * 4294967296) (mrow mat z i p)) mat) as (w & E & Lw & W).
  - rewrite Lm. intros i Hi. destruct (k_acc_ok (nth i mat []) zh (M i Hi) Pz) as (r & Er & Pr & Vr). exists r. split; [exact Er|]. split; [exact Pr|].
    intros p Hp. eapply eqq_trans; [apply Vr; exact Hp|]. unfold dot4, mrow, mentry.
    repeat apply eqq_add; (apply eqq_mul; [apply eqq_refl|apply Ez; [lia|exact Hp]]).
  - rewrite Lm in *. exists w. split; [exact E|]. split; [split; [exact Lw|]|]; intros i Hi; apply (W i Hi).
Qed.
End Ops.

(** ** Comparing results *)
Lemma std_eq : forall a b, std a -> std b -> (forall p, (p < 256)%nat -> eqq (at_ a p) (at_ b p)) -> a = b.
Proof.
  intros a b [La A] [Lb B] E. apply (nth_ext _ _ 0 0); [congruence|]. intros p Hp. rewrite La in Hp.
  specialize (E p Hp). specialize (A p Hp). specialize (B p Hp). apply eqq_mod in E. unfold at_ in *. rewrite !Z.mod_small in E by assumption. exact E.
Qed.
Lemma vec_std_eq : forall u v, vec std u -> vec std v -> (forall i, (i < 4)%nat -> forall p, (p < 256)%nat -> eqq (at_ (vat u i) p) (at_ (vat v i) p)) -> u = v.
Proof. intros u v [Lu U] [Lv V] E. apply vec_eq; [exact Lu|exact Lv|]. intros i Hi. apply std_eq; [apply U; exact Hi|apply V; exact Hi|apply E; exact Hi]. Qed.
Definition vsmall (B : Z) (v : polyvec) : Prop := forall i, (i < 4)%nat -> forall p, (p < 256)%nat -> Z.abs (at_ (vat v i) p) < B.
(** Two reduced vectors that are congruent pass a norm check together, and then they are equal. *)
Lemma norm_agree : forall u v B b b', B <= 131072 -> vec (pol REDB) u -> vec (pol REDB) v ->
  (forall i, (i < 4)%nat -> forall p, (p < 256)%nat -> eqq (at_ (vat u i) p) (at_ (vat v i) p)) ->
  (b = false <-> vsmall B u) -> (b' = false <-> vsmall B v) -> (b = true /\ b' = true) \/ (b = false /\ b' = false /\ vsmall B v /\ u = v).
Proof.
  intros u v B b b' HB [Lu U] [Lv V] E Hb Hb'.
  assert (G : vsmall B v -> u = v).
  { intro S. apply vec_eq; [exact Lu|exact Lv|]. intros i Hi. apply (reduced_agree B); [exact HB|apply U; exact Hi|apply V; exact Hi|apply E; exact Hi|exact (S i Hi)]. }
  assert (G' : vsmall B u -> v = u).
  { intro S. apply vec_eq; [exact Lv|exact Lu|]. intros i Hi. apply (reduced_agree B); [exact HB|apply V; exact Hi|apply U; exact Hi| |exact (S i Hi)].
    intros p Hp. apply eqq_sym. apply E; assumption. }
  destruct b', b; [left; auto| | |].
  - assert (S : vsmall B u) by (apply Hb; reflexivity). assert (C : vsmall B v) by (rewrite (G' S); exact S). apply Hb' in C. discriminate C.
  - assert (S : vsmall B v) by (apply Hb'; reflexivity). assert (C : vsmall B u) by (rewrite (G S); exact S). apply Hb in C. discriminate C.
  - right. assert (S : vsmall B v) by (apply Hb'; reflexivity). auto.
Qed.
