(** * AvxSignOk: the polynomial arithmetic of AVX2 signing, and signing itself. *)
From Coq Require Import ZArith List Lia Bool.
From Verif Require Import Base Bits SaberPoly SaberRing DilArith DilNtt DilNttProof DilNttEval DilNttSpec DilPoly DilPack DilCodec2 DilHint DilOps DilSample DilRound DilSign DilCorrect
  AvxMachine AvxSym AvxSymOk AvxNtt AvxPoint AvxPoly AvxBytes AvxBytesOk AvxCodecOk AvxSign AvxSample.
Import ListNotations.
Open Scope Z_scope.
Local Opaque root mred invntt_avx ntt_avx pointwise_avx pointwise_acc_avx pointwise_alias_avx nttunpack_avx tau H256 poly_challenge.

(** ** Products, back from the transform *)
Lemma at_unpacked : forall a p, (p < 256)%nat -> at_ (unpacked a) p = at_ a (Z.to_nat (nth p tau 0)).
Proof.
  intros a p Hp. unfold unpacked. unfold at_ at 1. rewrite (nth_indep _ 0 (at_ a (Z.to_nat 0))) by (rewrite map_length, tau_length; exact Hp).
  rewrite (map_nth (fun j => at_ a (Z.to_nat j))). reflexivity.
Qed.
Lemma unpacked_length : forall a, length (unpacked a) = 256%nat.
Proof. intro a. unfold unpacked. rewrite map_length. apply tau_length. Qed.
Lemma tau_at : forall p, (p < 256)%nat -> (Z.to_nat (nth p tau 0%Z) < 256)%nat.
Proof.
  intros p Hp. pose proof tau_range as F. rewrite Forall_forall in F. specialize (F (nth p tau 0)). cbv beta in F.
  assert (I : In (nth p tau 0) tau) by (apply nth_In; rewrite tau_length; exact Hp). specialize (F I). lia.
Qed.
Lemma unpacked_seq : forall (f g : nat -> Z), (forall p, (p < 256)%nat -> f p = g (Z.to_nat (nth p tau 0))) ->
  map f (seq 0 256) = unpacked (map g (seq 0 256)).
Proof.
  intros f g H. apply (nth_ext _ _ 0 0); [rewrite map_length, seq_length, unpacked_length; reflexivity|].
  intros p Hp. rewrite map_length, seq_length in Hp. fold (at_ (map f (seq 0 256)) p) (at_ (unpacked (map g (seq 0 256))) p).
  rewrite at_unpacked by exact Hp. rewrite nth_map_seq by exact Hp. rewrite nth_map_seq by (apply tau_at; exact Hp). apply H. exact Hp.
Qed.
Lemma mred_bound : forall x, - (2147483647 * Q) < x < 2147483647 * Q -> - Q < mred x < Q /\ eqq (mred x * 4294967296) x.
Proof.
  intros x H. destruct (montgomery_reduce_ok x) as (r & E & Hr & C); [unfold Q in *; lia|]. apply mred_spec in E. subst r. auto.
Qed.
(** A vector, bounded and congruent coefficient by coefficient to [a]. *)
Definition near (r a : poly) : Prop :=
  length r = 256%nat /\ (forall p, (p < 256)%nat -> - Q < at_ r p < Q /\ eqq (at_ r p) (at_ a p)).
Lemma invntt_near : forall R (u : nat -> Z) f, regs_ok R ->
  (forall p, (p < 256)%nat -> - Q < u p < Q /\ eqq (u p * 4294967296) (ev p f)) ->
  near (invntt_avx R (unpacked (map u (seq 0 256)))) f.
Proof.
  intros R u f HR H. set (v := map u (seq 0 256)).
  assert (Lv : length v = 256%nat) by (unfold v; rewrite map_length, seq_length; reflexivity).
  assert (Vp : forall p, (p < 256)%nat -> at_ v p = u p) by (intros p Hp; unfold v; apply nth_map_seq; exact Hp).
  assert (Bv : bnd Q v). { intros p Hp. rewrite Vp by exact Hp. specialize (H p Hp). lia. }
  destruct (invntt_avx_ok R v HR Lv Bv) as (c & Ec & Lr & Pr). destruct (poly_invntt_ok v (conj Lv Bv)) as (a & Ea & _ & Va).
  rewrite Ec in Ea. assert (a = c) as -> by (injection Ea as ->; reflexivity). clear Ea.
  split; [exact Lr|]. intros p Hp. destruct (Pr p Hp) as [B C]. split; [exact B|]. eapply eqq_trans; [exact C|].
  apply ev_inj; [|exact Hp]. intros q Hq. eapply eqq_trans; [apply Va; exact Hq|]. rewrite Vp by exact Hq. apply H. exact Hq.
Qed.
Lemma cmul_avx_ok : forall e cp sh c s f, ctx_ok e -> pol (9 * Q) cp -> pol (9 * Q) sh ->
  (forall p, (p < 256)%nat -> eqq (at_ cp p) (ev p c)) -> (forall p, (p < 256)%nat -> eqq (at_ sh p) (ev p s)) ->
  (forall p, (p < 256)%nat -> eqq (ev p f) (ev p c * ev p s)) ->
  near (cmul_avx e (unpacked cp) (unpacked sh)) f.
Proof.
  intros e cp sh c s f [HR _] [Lc Bc] [Ls Bs] Ec Es Ef. unfold cmul_avx.
  rewrite pointwise_avx_ok by (assumption || apply unpacked_length || apply raw_length).
  rewrite (unpacked_seq _ (fun p => mred (at_ cp p * at_ sh p))) by (intros p Hp; rewrite !at_unpacked by exact Hp; reflexivity).
  apply invntt_near; [exact HR|]. intros p Hp. specialize (Bc p Hp). specialize (Bs p Hp).
  destruct (mred_bound (at_ cp p * at_ sh p)) as [B C].
  { assert (- (81 * Q * Q) <= at_ cp p * at_ sh p <= 81 * Q * Q) by (unfold Q in *; nia). unfold Q in *. lia. }
  split; [exact B|]. eapply eqq_trans; [exact C|]. eapply eqq_trans; [|apply eqq_sym, Ef; exact Hp].
  apply eqq_mul; [apply Ec|apply Es]; exact Hp.
Qed.
Lemma four_bound : forall a0 a1 a2 a3 b0 b1 b2 b3 A B, 0 <= A -> 0 <= B ->
  - A <= a0 <= A -> - A <= a1 <= A -> - A <= a2 <= A -> - A <= a3 <= A ->
  - B <= b0 <= B -> - B <= b1 <= B -> - B <= b2 <= B -> - B <= b3 <= B ->
  - (4 * (A * B)) <= a0 * b0 + a1 * b1 + a2 * b2 + a3 * b3 <= 4 * (A * B).
Proof.
  intros a0 a1 a2 a3 b0 b1 b2 b3 A B HA HB H0 H1 H2 H3 K0 K1 K2 K3.
  assert (G : forall a b, - A <= a <= A -> - B <= b <= B -> - (A * B) <= a * b <= A * B) by (intros; nia).
  pose proof (G a0 b0 H0 K0). pose proof (G a1 b1 H1 K1). pose proof (G a2 b2 H2 K2). pose proof (G a3 b3 H3 K3). lia.
Qed.
(** A matrix row times a vector, in the transform domain. *)
Lemma row_avx_ok : forall e mat i zh z, ctx_ok e -> matrix mat -> (i < 4)%nat -> vec (pol (9 * Q)) zh ->
  (forall j, (j < 4)%nat -> forall p, (p < 256)%nat -> eqq (at_ (vat zh j) p) (ev p (vat z j))) ->
  exists u, pointwise_acc_avx (c_regs e) (map unpacked (nth i mat [])) (map unpacked zh) (raw e 256) = unpacked (map u (seq 0 256)) /\
    (forall p, (p < 256)%nat -> - Q < u p < Q /\ eqq (u p * 4294967296) (mrow mat z i p)).
Proof.
  intros e mat i zh z [HR _] [Lm M] Hi [Lz Vz] Ez. destruct (M i Hi) as [Lr Vr]. set (row := nth i mat []) in *.
  destruct row as [|r0 [|r1 [|r2 [|r3 [|? ?]]]]] eqn:Er; try discriminate Lr. destruct zh as [|z0 [|z1 [|z2 [|z3 [|? ?]]]]]; try discriminate Lz.
  rewrite pointwise_acc_avx_ok; try reflexivity; try exact HR; try (apply raw_length);
    try (repeat (apply Forall_cons; [apply unpacked_length|]); apply Forall_nil).
  cbn [map nth].
  rewrite (unpacked_seq _ (fun p => mred (at_ r0 p * at_ z0 p + at_ r1 p * at_ z1 p + at_ r2 p * at_ z2 p + at_ r3 p * at_ z3 p)))
    by (intros p Hp; rewrite !at_unpacked by exact Hp; reflexivity).
  eexists. split; [reflexivity|]. intros p Hp. cbv beta.
  pose proof (Vr 0%nat ltac:(lia)) as [_ R0]. pose proof (Vr 1%nat ltac:(lia)) as [_ R1]. pose proof (Vr 2%nat ltac:(lia)) as [_ R2]. pose proof (Vr 3%nat ltac:(lia)) as [_ R3].
  pose proof (Vz 0%nat ltac:(lia)) as [_ Z0]. pose proof (Vz 1%nat ltac:(lia)) as [_ Z1]. pose proof (Vz 2%nat ltac:(lia)) as [_ Z2]. pose proof (Vz 3%nat ltac:(lia)) as [_ Z3].
  specialize (R0 p Hp). specialize (R1 p Hp). specialize (R2 p Hp). specialize (R3 p Hp).
  specialize (Z0 p Hp). specialize (Z1 p Hp). specialize (Z2 p Hp). specialize (Z3 p Hp).
  cbn [vat nth] in *.
  edestruct mred_bound as [B C]; [|split; [exact B|eapply eqq_trans; [exact C|]]].
  { pose proof (four_bound (at_ r0 p) (at_ r1 p) (at_ r2 p) (at_ r3 p) (at_ z0 p) (at_ z1 p) (at_ z2 p) (at_ z3 p) Q (9 * Q)) as FB.
    unfold Q in *. lia. }
  unfold mrow, mentry. fold row. rewrite Er. cbn [vat nth].
  pose proof (Ez 0%nat ltac:(lia) p Hp) as E0. pose proof (Ez 1%nat ltac:(lia) p Hp) as E1. pose proof (Ez 2%nat ltac:(lia) p Hp) as E2. pose proof (Ez 3%nat ltac:(lia) p Hp) as E3.
  cbn [vat nth] in E0, E1, E2, E3.
  repeat apply eqq_add; (apply eqq_mul; [apply eqq_refl|assumption]).
Qed.
Lemma ntt_vec_avx : forall R v vh, regs_ok R -> vec (pol Q) v -> polyvec_ntt v = CRet vh -> map (ntt_avx R) v = map unpacked vh.
Proof.
  intros R v vh HR [Lv V] E.
  assert (G : forall l w, (forall a, In a l -> pol Q a) -> mapM ntt l = CRet w -> map (ntt_avx R) l = map unpacked w).
  { induction l as [|a l IH]; intros w H F; cbn [mapM] in F; [injection F as <-; reflexivity|].
    destruct (H a (or_introl eq_refl)) as [La Ba]. destruct (ntt_avx_ok R a Q HR La Ba) as (x & Ex & Rx); [unfold Q; lia|].
    rewrite Ex in F. cbn [cbind] in F. destruct (mapM ntt l) as [y| |] eqn:Ey; cbn [cbind] in F; try discriminate F. injection F as <-.
    cbn [map]. rewrite Rx. rewrite (IH y); [reflexivity| |reflexivity]. intros b Hb. apply H. right. exact Hb. }
  apply G; [|exact E]. intros a Ha. apply (In_nth _ _ []) in Ha. destruct Ha as (i & Hi & <-). apply V.
  lia.
Qed.

(** ** Reduced representatives that matter coincide *)
Definition small (B : Z) (a : poly) : Prop := forall p, (p < 256)%nat -> Z.abs (at_ a p) < B.
Lemma reduced_agree : forall B a b, B <= 131072 -> pol REDB a -> pol REDB b ->
  (forall p, (p < 256)%nat -> eqq (at_ a p) (at_ b p)) -> small B b -> a = b.
Proof.
  intros B a b HB [La Ba] [Lb Bb] E S. apply (nth_ext _ _ 0 0); [congruence|]. intros p Hp. rewrite La in Hp.
  destruct (E p Hp) as [k Hk]. specialize (Ba p Hp). specialize (Bb p Hp). specialize (S p Hp). unfold REDB, Q, at_ in *. lia.
Qed.
Lemma chknorm_avx_iff : forall a B, B <= 1047552 -> 0 <= B -> pol REDB a -> (chknorm_avx a B = false <-> small B a).
Proof.
  intros a B HB H0 [L Ba]. change 1047552 with ((Q - 1) / 8) in HB. rewrite chknorm_avx_ok; [|exact HB|lia|].
  - unfold small. apply (pol_Forall (fun x => Z.abs x < B)). exact L.
  - apply (pol_Forall (fun x => -2147483648 < x < 2147483648)); [exact L|]. intros p Hp. specialize (Ba p Hp). unfold REDB in Ba. lia.
Qed.
Lemma chknorm_agree : forall a b B, 0 <= B <= 131072 -> pol REDB a -> pol REDB b ->
  (forall p, (p < 256)%nat -> eqq (at_ a p) (at_ b p)) ->
  (small B b -> chknorm_avx a B = false /\ a = b) /\ (~ small B b -> chknorm_avx a B = true).
Proof.
  intros a b B HB Pa Pb E. split; intro S.
  - assert (a = b) as -> by (apply (reduced_agree B); try assumption; lia). split; [|reflexivity]. apply chknorm_avx_iff; try assumption; lia.
  - destruct (chknorm_avx a B) eqn:C; [reflexivity|]. exfalso. apply chknorm_avx_iff in C; try assumption; try lia.
    apply S. assert (b = a) as ->; [|exact C]. apply (reduced_agree B); try assumption; [lia|]. intros p Hp. apply eqq_sym. apply E. exact Hp.
Qed.
Lemma reduce_avx_near : forall a, pol 2143289343 a -> pol REDB (reduce_avx a) /\ (forall p, (p < 256)%nat -> eqq (at_ (reduce_avx a) p) (at_ a p)).
Proof. intros a P. destruct (poly_reduce_ok a P) as (r & E & Pr & Er). rewrite (reduce_avx_ok _ _ E). auto. Qed.
Lemma near_pol : forall r a, near r a -> pol Q r.
Proof. intros r a [L N]. split; [exact L|]. intros p Hp. destruct (N p Hp). lia. Qed.
Lemma add_avx_at : forall a b A B, pol A a -> pol B b -> A + B < 2147483648 ->
  pol (A + B) (add_avx a b) /\ (forall p, (p < 256)%nat -> at_ (add_avx a b) p = at_ a p + at_ b p).
Proof. intros a b A B Pa Pb H. destruct (poly_add_ok a b A B Pa Pb H) as (r & E & Pr & Er). rewrite (add_avx_ok _ _ _ E). auto. Qed.
Lemma sub_avx_at : forall a b A B, pol A a -> pol B b -> A + B < 2147483648 ->
  pol (A + B) (sub_avx a b) /\ (forall p, (p < 256)%nat -> at_ (sub_avx a b) p = at_ a p - at_ b p).
Proof. intros a b A B Pa Pb H. destruct (poly_sub_ok a b A B Pa Pb H) as (r & E & Pr & Er). rewrite (sub_avx_ok _ _ _ E). auto. Qed.

(** ** The response *)
Definition zrow (e : ctx) (c s y z : poly) : Prop :=
  pol REDB (reduce_avx (add_avx y (cmul_avx e c s))) /\ pol REDB z /\
  forall p, (p < 256)%nat -> eqq (at_ (reduce_avx (add_avx y (cmul_avx e c s))) p) (at_ z p).
Lemma z_rows_ok : forall e c s1 y z, length s1 = length z -> length y = length z ->
  (forall i, (i < length z)%nat -> zrow e c (vat s1 i) (vat y i) (vat z i)) ->
  (Forall (small (GAMMA1 - BETA)) z -> z_rows e c s1 y = Some z) /\ (~ Forall (small (GAMMA1 - BETA)) z -> z_rows e c s1 y = None).
Proof.
  intros e c s1 y z. revert s1 y. induction z as [|z0 z IH]; intros [|s s1] [|y0 y] Ls Ly H; try discriminate Ls; try discriminate Ly.
  - split; [reflexivity|]. intro N. exfalso. apply N. constructor.
  - destruct (IH s1 y) as [I1 I2]; [cbn in Ls; lia|cbn in Ly; lia|intros i Hi; exact (H (Datatypes.S i) ltac:(cbn; lia))|].
    destruct (H 0%nat ltac:(cbn; lia)) as (Pa & Pb & E). cbn [vat nth] in Pa, Pb, E. cbn [z_rows]. cbv zeta.
    destruct (chknorm_agree _ _ (GAMMA1 - BETA) ltac:(unfold GAMMA1, BETA; lia) Pa Pb E) as [C1 C2]. clear E Pa.
    generalize dependent (reduce_avx (add_avx y0 (cmul_avx e c s))). intros zi C1 C2. split; intro F.
    + apply Forall_cons_iff in F. destruct F as [F0 F]. destruct (C1 F0) as [-> ->]. rewrite (I1 F). reflexivity.
    + destruct (chknorm_avx z0 (GAMMA1 - BETA)) eqn:N0.
      * destruct (chknorm_avx zi (GAMMA1 - BETA)) eqn:Nz; [reflexivity|]. rewrite I2; [reflexivity|]. intro G. apply F. constructor; [|exact G].
        exfalso. assert (S : ~ small (GAMMA1 - BETA) z0).
        { intro S. apply chknorm_avx_iff in S; [congruence|unfold GAMMA1, BETA; lia|unfold GAMMA1, BETA; lia|exact Pb]. }
        specialize (C2 S). discriminate C2.
      * assert (S : small (GAMMA1 - BETA) z0) by (apply chknorm_avx_iff; [unfold GAMMA1, BETA; lia|unfold GAMMA1, BETA; lia|exact Pb|exact N0]).
        destruct (C1 S) as [-> _]. rewrite I2; [reflexivity|]. intro G. apply F. constructor; assumption.
Qed.

(** ** High bits into the buffer *)
Lemma firstn_firstn_le : forall {A} (l : list A) n m, (n <= m)%nat -> firstn n (firstn m l) = firstn n l.
Proof. intros A l n m H. rewrite firstn_firstn. f_equal. lia. Qed.
Lemma pack_w1_rows : forall w1 i buf, Forall (fun a => length a = 256%nat /\ Forall in6 a) w1 -> (192 * (i + length w1) + 8 <= length buf)%nat ->
  exists buf', foldM (fun b ir => polyw1_pack_avx b (192 * fst ir) (snd ir)) (combine (seq i (length w1)) w1) buf = CRet buf' /\
    length buf' = length buf /\ firstn (192 * (i + length w1)) buf' = firstn (192 * i) buf ++ flat_map polyw1_pack w1.
Proof.
  induction w1 as [|a w1 IH]; intros i buf F L.
  - exists buf. cbn [length seq combine foldM flat_map]. rewrite app_nil_r, Nat.add_0_r. repeat split; reflexivity.
  - apply Forall_cons_iff in F. destruct F as [[La Fa] F]. cbn [length] in *.
    destruct (polyw1_pack_avx_ok buf (192 * i) a) as (b & E & Lb & Fb & _); [lia|exact La|exact Fa|].
    destruct (IH (Datatypes.S i) b F) as (b' & E' & Lb' & Fb'); [rewrite Lb; lia|].
    cbn [seq combine]. rewrite foldM_cons. cbn [fst snd]. rewrite E. cbn [cbind]. rewrite E'. exists b'. split; [reflexivity|]. split; [congruence|].
    replace (192 * (i + Datatypes.S (length w1)))%nat with (192 * (Datatypes.S i + length w1))%nat by lia. rewrite Fb'.
    replace (192 * Datatypes.S i)%nat with (192 * i + 192)%nat by lia. rewrite Fb. cbn [flat_map]. rewrite app_assoc. reflexivity.
Qed.
Lemma pack_w1_avx_ok : forall buf w1, vec4 high_range w1 -> (776 <= length buf)%nat ->
  exists buf', pack_w1_avx buf w1 = CRet buf' /\ length buf' = length buf /\ firstn 768 buf' = polyveck_pack_w1 w1.
Proof.
  intros buf w1 [L V] Lb. unfold pack_w1_avx. destruct (pack_w1_rows w1 0 buf) as (b & E & L' & F).
  - eapply Forall_impl; [|exact V]. intros a [La Fa]. split; [exact La|]. eapply Forall_impl; [|exact Fa].
    unfold high_range, in6. cbv beta. intros x Hx. try (split; lia); try lia.
  - rewrite L. lia.
  - rewrite L in E, F. exists b. split; [exact E|]. split; [exact L'|]. exact F.
Qed.

(** ** Hints *)
Lemma chknorm_cases : forall a b B, 0 <= B <= 131072 -> pol REDB a -> pol REDB b ->
  (forall p, (p < 256)%nat -> eqq (at_ a p) (at_ b p)) ->
  (small B b /\ chknorm_avx a B = false /\ a = b) \/ (~ small B b /\ chknorm_avx a B = true).
Proof.
  intros a b B HB Pa Pb E. destruct (chknorm_agree a b B HB Pa Pb E) as [C1 C2].
  destruct (chknorm_avx b B) eqn:D.
  - right. assert (N : ~ small B b) by (intro S; apply chknorm_avx_iff in S; [congruence|lia|lia|exact Pb]). auto.
  - left. apply chknorm_avx_iff in D; [|lia|lia|exact Pb]. destruct (C1 D). auto.
Qed.
Lemma patch_app : forall (x y z y' : bytes), length y' = length y -> patch (x ++ y ++ z) (length x) y' = CRet (x ++ y' ++ z).
Proof.
  intros x y z y' L. rewrite patch_ok by (rewrite !app_length; lia). f_equal.
  rewrite firstn_app, Nat.sub_diag, firstn_O, app_nil_r, firstn_all. do 2 f_equal.
  rewrite app_assoc, skipn_app. rewrite skipn_all2 by (rewrite app_length; lia). rewrite app_length, L, Nat.sub_diag. reflexivity.
Qed.
Lemma patch_at : forall (b x y z y' : bytes) off, b = x ++ y ++ z -> off = length x -> length y' = length y -> patch b off y' = CRet (x ++ y' ++ z).
Proof. intros b x y z y' off -> -> L. apply patch_app. exact L. Qed.
Definition hrow (e : ctx) (c : poly) (row : poly * poly * poly * poly) (u t h : poly) : Prop :=
  let '(s2, t0, w0, w1) := row in
  let A := reduce_avx (sub_avx w0 (cmul_avx e c s2)) in
  let T := reduce_avx (cmul_avx e c t0) in
  pol REDB A /\ pol REDB u /\ (forall p, (p < 256)%nat -> eqq (at_ A p) (at_ u p)) /\
  pol REDB T /\ pol REDB t /\ (forall p, (p < 256)%nat -> eqq (at_ T p) (at_ t p)) /\
  length w1 = 256%nat /\ (forall p, (p < 256)%nat -> 0 <= at_ w1 p) /\ h = map2 make_hint (add_avx u t) w1.
Lemma h_row_step : forall e c s2 t0 w0 w1 rest i sig pos u t h, hrow e c (s2, t0, w0, w1) u t h ->
  (small (GAMMA2 - BETA) u /\ small GAMMA2 t /\ (pos + length (positions h) <= OMEGA)%nat /\
   h_rows e c ((s2, t0, w0, w1) :: rest) i sig pos =
     (do sig <- patch sig (2336 + pos) (map Z.of_nat (positions h)) ;;
      do sig <- patch sig (2336 + OMEGA + i) [u8 (Z.of_nat (pos + length (positions h)))] ;;
      h_rows e c rest (Datatypes.S i) sig (pos + length (positions h)))) \/
  (~ (small (GAMMA2 - BETA) u /\ small GAMMA2 t /\ (pos + length (positions h) <= OMEGA)%nat) /\
   h_rows e c ((s2, t0, w0, w1) :: rest) i sig pos = CRet (sig, false)).
Proof.
  intros e c s2 t0 w0 w1 rest i sig pos u t h H. unfold hrow in H. cbv zeta in H. cbn [h_rows]. cbv zeta.
  revert H. generalize (reduce_avx (sub_avx w0 (cmul_avx e c s2))) (reduce_avx (cmul_avx e c t0)).
  intros A T (PA & Pu & EA & PT & Pt & ET & L1 & N1 & Eh).
  destruct (chknorm_cases A u (GAMMA2 - BETA)) as [(Su & -> & ->)|(Su & ->)]; [unfold GAMMA2, BETA; lia|assumption|assumption|assumption| |right; split; [tauto|reflexivity]].
  destruct (chknorm_cases T t GAMMA2) as [(St & -> & ->)|(St & ->)]; [unfold GAMMA2; lia|assumption|assumption|assumption| |right; split; [tauto|reflexivity]].
  destruct (add_avx_at u t REDB REDB Pu Pt) as [[La Ba] _]; [unfold REDB; lia|].
  destruct (make_hint_avx_ok (add_avx u t) w1 La L1) with (hint := raw e 256) as (hb & n & -> & Lh & -> & Fh).
  { intros p Hp. specialize (Ba p Hp). unfold REDB in Ba. lia. } { exact N1. } { apply raw_length. }
  cbn [cbind]. rewrite Fh. rewrite <- Eh.
  destruct (Nat.ltb_spec OMEGA (pos + length (positions h))) as [O|O]; [right; split; [lia|reflexivity]|].
  left. split; [exact Su|]. split; [exact St|]. split; [exact O|]. reflexivity.
Qed.
Local Opaque hrow positions h_rows OMEGA small.
Lemma h_rows_ok : forall e c rows us ts hs i pre ps tt junk, length us = length rows -> length ts = length rows -> length hs = length rows ->
  (forall k, (k < length rows)%nat -> hrow e c (nth k rows ([], [], [], [])) (vat us k) (vat ts k) (vat hs k)) ->
  length pre = 2336%nat -> (length ps <= OMEGA)%nat -> length tt = i -> length junk = length rows ->
  (Forall (small (GAMMA2 - BETA)) us /\ Forall (small GAMMA2) ts /\ (length ps + length (flat_map positions hs) <= OMEGA)%nat /\
   h_rows e c rows i (pre ++ ps ++ repeat 0 (OMEGA - length ps) ++ tt ++ junk) (length ps) =
   CRet (pre ++ (ps ++ map Z.of_nat (flat_map positions hs)) ++ repeat 0 (OMEGA - (length ps + length (flat_map positions hs))) ++
         tt ++ map Z.of_nat (totals (length ps) hs), true)) \/
  (~ (Forall (small (GAMMA2 - BETA)) us /\ Forall (small GAMMA2) ts /\ (length ps + length (flat_map positions hs) <= OMEGA)%nat) /\
   exists sig', h_rows e c rows i (pre ++ ps ++ repeat 0 (OMEGA - length ps) ++ tt ++ junk) (length ps) = CRet (sig', false) /\
     length sig' = (2336 + OMEGA + length tt + length junk)%nat).
Proof.
  intros e c. induction rows as [|[[[s2 t0] w0] w1] rows IH]; intros [|u us] [|t ts] [|h hs] i pre ps tt junk Lu Lt Lh H Lpre Lps Ltt Lj;
    try discriminate Lu; try discriminate Lt; try discriminate Lh.
  - left. destruct junk; [|discriminate Lj]. change (h_rows e c [] i) with (fun (sig : bytes) (pos : nat) => CRet (sig, true)). cbv beta. cbn [flat_map totals map length]. rewrite !app_nil_r, Nat.add_0_r. split; [apply Forall_nil|]. split; [apply Forall_nil|]. split; [exact Lps|reflexivity].
  - destruct junk as [|j0 junk]; [discriminate Lj|]. cbn [length] in Lu, Lt, Lh, Lj.
    pose proof (H 0%nat ltac:(cbn; lia)) as H0. cbn [nth vat] in H0.
    destruct (h_row_step e c s2 t0 w0 w1 rows i (pre ++ ps ++ repeat 0 (OMEGA - length ps) ++ tt ++ j0 :: junk) (length ps) u t h H0)
      as [(Su & St & Ho & E)|(N & E)].
    2:{ right. split.
        - intros (F1 & F2 & F3). apply N. apply Forall_cons_iff in F1, F2. cbn [flat_map] in F3. rewrite app_length in F3.
          split; [apply F1|]. split; [apply F2|]. lia.
        - rewrite E. eexists. split; [reflexivity|]. rewrite !app_length, repeat_length. cbn [length]. change OMEGA with 80%nat in *. lia. }
    rewrite E. clear E.
    set (n := length (positions h)) in *.
    rewrite (patch_at _ (pre ++ ps) (repeat 0 n) (repeat 0 (OMEGA - (length ps + n)) ++ tt ++ j0 :: junk)).
    2:{ rewrite <- !app_assoc. do 2 f_equal. rewrite (app_assoc (repeat 0 n)), <- repeat_app. do 2 f_equal. lia. }
    2:{ rewrite app_length. lia. } 2:{ rewrite map_length, repeat_length. reflexivity. }
    cbn [cbind].
    rewrite (patch_at _ (pre ++ ps ++ map Z.of_nat (positions h) ++ repeat 0 (OMEGA - (length ps + n)) ++ tt) [j0] junk).
    2:{ rewrite <- !app_assoc. reflexivity. }
    2:{ rewrite !app_length, repeat_length, map_length. fold n. change OMEGA with 80%nat in *. lia. } 2: reflexivity.
    cbn [cbind].
    assert (U : u8 (Z.of_nat (length ps + n)) = Z.of_nat (length ps + n)).
    { unfold u8. apply Z.mod_small. change OMEGA with 80%nat in *. lia. }
    rewrite U. clear U.
    assert (Lps' : length (ps ++ map Z.of_nat (positions h)) = (length ps + n)%nat) by (rewrite app_length, map_length; reflexivity).
    specialize (IH us ts hs (Datatypes.S i) pre (ps ++ map Z.of_nat (positions h)) (tt ++ [Z.of_nat (length ps + n)]) junk).
    rewrite Lps' in IH.
    replace ((pre ++ ps ++ map Z.of_nat (positions h) ++ repeat 0 (OMEGA - (length ps + n)) ++ tt) ++ [Z.of_nat (length ps + n)] ++ junk)
      with (pre ++ (ps ++ map Z.of_nat (positions h)) ++ repeat 0 (OMEGA - (length ps + n)) ++ (tt ++ [Z.of_nat (length ps + n)]) ++ junk)
      by (rewrite <- !app_assoc; reflexivity).
    destruct IH as [(F1 & F2 & F3 & E)|(N & sig' & E & L)]; [clear - Lu; lia|clear - Lt; lia|clear - Lh; lia| |exact Lpre|exact Ho| |clear - Lj; lia| |].
    + intros k Hk. exact (H (Datatypes.S k) (proj1 (Nat.succ_lt_mono k (length rows)) Hk)).
    + rewrite app_length. cbn [length]. clear - Ltt. lia.
    + left. split; [constructor; assumption|]. split; [constructor; assumption|]. cbn [flat_map]. rewrite app_length. fold n. split; [lia|].
      rewrite E. do 2 f_equal. cbn [totals map]. fold n. rewrite map_app. rewrite <- !app_assoc. do 4 f_equal.
      rewrite Nat.add_assoc. cbn [app]. reflexivity.
    + right. split.
      * intros (F1 & F2 & F3). apply N. apply Forall_cons_iff in F1, F2. cbn [flat_map] in F3. rewrite app_length in F3. fold n in F3.
        split; [apply F1|]. split; [apply F2|]. lia.
      * exists sig'. split; [exact E|]. rewrite L, app_length. cbn [length]. lia.
Qed.

(** ** The commitment *)
Lemma near_caddq : forall r a, near r a -> std a -> caddq_avx r = a.
Proof.
  intros r a [L N] [La Sa]. destruct (poly_caddq_ok r) as (r' & E & L' & P').
  { split; [exact L|]. intros p Hp. destruct (N p Hp). lia. }
  rewrite (caddq_avx_ok r r').
  - apply (nth_ext _ _ 0 0); [congruence|]. intros p Hp. rewrite L' in Hp. destruct (P' p Hp) as [B C]. destruct (N p Hp) as [_ D]. specialize (Sa p Hp).
    assert (G : eqq (at_ r' p) (at_ a p)) by (eapply eqq_trans; eassumption). apply eqq_mod in G. rewrite !Z.mod_small in G by assumption. exact G.
  - apply (pol_Forall in32); [exact L|]. intros p Hp. destruct (N p Hp). unfold in32, Q in *. lia.
  - exact E.
Qed.
Lemma vec_eq : forall (v w : polyvec), length v = 4%nat -> length w = 4%nat -> (forall i, (i < 4)%nat -> vat v i = vat w i) -> v = w.
Proof. intros v w Lv Lw H. apply (nth_ext _ _ [] []); [congruence|]. intros i Hi. rewrite Lv in Hi. apply H. exact Hi. Qed.
Lemma vat_map : forall (f : poly -> poly) v i, (i < length v)%nat -> vat (map f v) i = f (vat v i).
Proof. intros f v i Hi. unfold vat. rewrite (nth_indep _ [] (f [])) by (rewrite map_length; exact Hi). apply map_nth. Qed.
Lemma commitment_avx : forall e mat zh z w, ctx_ok e -> matrix mat -> vec (pol (9 * Q)) zh ->
  (forall j, (j < 4)%nat -> forall p, (p < 256)%nat -> eqq (at_ (vat zh j) p) (ev p (vat z j))) ->
  vec std w -> (forall i, (i < 4)%nat -> forall p, (p < 256)%nat -> eqq (ev p (vat w i)) (mrow mat z i p)) ->
  map caddq_avx (map (invntt_avx (c_regs e)) (map (fun row => pointwise_acc_avx (c_regs e) row (map unpacked zh) (raw e 256)) (map (map unpacked) mat))) = w.
Proof.
  intros e mat zh z w He M Pz Ez [Lw Sw] Ew. rewrite !map_map. destruct M as [Lm M'].
  apply vec_eq; [rewrite map_length; exact Lm|exact Lw|]. intros i Hi.
  unfold vat at 1. rewrite (nth_indep _ [] (caddq_avx (invntt_avx (c_regs e) (pointwise_acc_avx (c_regs e) (map unpacked []) (map unpacked zh) (raw e 256)))))
    by (rewrite map_length, Lm; exact Hi).
  rewrite (map_nth (fun x => caddq_avx (invntt_avx (c_regs e) (pointwise_acc_avx (c_regs e) (map unpacked x) (map unpacked zh) (raw e 256))))).
  destruct (row_avx_ok e mat i zh z He (conj Lm M') Hi Pz Ez) as (u & -> & Hu). apply near_caddq; [|apply Sw; exact Hi].
  apply invntt_near; [apply He|]. intros p Hp. destruct (Hu p Hp) as [B C]. split; [exact B|]. eapply eqq_trans; [exact C|]. apply eqq_sym. apply Ew; assumption.
Qed.
Lemma decompose_poly_avx : forall a r, std a -> poly_decompose a = CRet r -> decompose_avx a = r.
Proof.
  intros a r [L S] E. unfold poly_decompose in E. unfold decompose_avx.
  assert (F : Forall (fun x => 0 <= x < Q) a) by (apply (pol_Forall (fun x => 0 <= x < Q)); assumption). clear L S.
  assert (G : mapM decompose a = CRet (map decompose_lane a)).
  { clear E. induction F as [|x a Hx F IH]; [reflexivity|]. cbn [mapM map]. rewrite decompose_lane_ok by exact Hx. cbn [cbind]. rewrite IH. reflexivity. }
  rewrite G in E. cbn [cbind] in E. rewrite !map_map in E. injection E as <-. reflexivity.
Qed.
Lemma decompose_vec_avx : forall w w1 w0, vec std w -> polyveck_decompose w = CRet (w1, w0) ->
  map fst (map decompose_avx w) = w1 /\ map snd (map decompose_avx w) = w0.
Proof.
  intros w w1 w0 [L S] E. unfold polyveck_decompose in E.
  assert (G : forall l, (forall a, In a l -> std a) -> forall r, mapM poly_decompose l = CRet r -> map decompose_avx l = r).
  { induction l as [|a l IH]; intros H r F; cbn [mapM] in F; [injection F as <-; reflexivity|].
    destruct (poly_decompose a) as [x| |] eqn:Ex; cbn [cbind] in F; try discriminate F.
    destruct (mapM poly_decompose l) as [y| |] eqn:Ey; cbn [cbind] in F; try discriminate F. injection F as <-. cbn [map].
    rewrite (decompose_poly_avx a x (H a (or_introl eq_refl)) Ex). rewrite (IH (fun b Hb => H b (or_intror Hb)) y eq_refl). reflexivity. }
  destruct (mapM poly_decompose w) as [r| |] eqn:Er; cbn [cbind] in E; try discriminate E.
  rewrite (G w) with (r := r); [|intros a Ha; apply (In_nth _ _ []) in Ha; destruct Ha as (i & Hi & <-); apply S; lia|exact Er].
  injection E as <- <-. split; reflexivity.
Qed.
(** ** The response into the signature *)
Lemma pack_z_rows : forall z i ct done mid tl, length ct = 32%nat -> length done = (576 * i)%nat -> Forall (fun a => length (polyz_pack a) = 576%nat) z ->
  length mid = (576 * length z)%nat ->
  foldM (fun b ir => patch b (32 + 576 * fst ir) (polyz_pack (snd ir))) (combine (seq i (length z)) z) (ct ++ done ++ mid ++ tl) =
  CRet (ct ++ (done ++ flat_map polyz_pack z) ++ tl).
Proof.
  induction z as [|a z IH]; intros i ct done mid tl Lc Ld F Lm.
  - cbn [length] in Lm. destruct mid; [|cbn in Lm; lia]. cbn [length seq combine foldM flat_map]. rewrite app_nil_r. reflexivity.
  - apply Forall_cons_iff in F. destruct F as [Fa F]. cbn [length seq combine]. rewrite foldM_cons. cbn [fst snd]. cbn [length] in Lm.
    rewrite (patch_at _ (ct ++ done) (firstn 576 mid) (skipn 576 mid ++ tl)).
    2:{ rewrite (app_assoc (firstn 576 mid)), firstn_skipn, <- app_assoc. reflexivity. }
    2:{ rewrite app_length. lia. } 2:{ rewrite firstn_length. lia. }
    cbn [cbind]. replace ((ct ++ done) ++ polyz_pack a ++ skipn 576 mid ++ tl) with (ct ++ (done ++ polyz_pack a) ++ skipn 576 mid ++ tl) by (rewrite <- !app_assoc; reflexivity).
    rewrite IH; [|exact Lc|rewrite app_length; lia|exact F|rewrite skipn_length; lia].
    cbn [flat_map]. rewrite <- !app_assoc. reflexivity.
Qed.
