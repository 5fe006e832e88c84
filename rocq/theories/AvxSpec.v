(** * AvxSpec: the verifier of the AVX2 build against the specification of Dilithium2 and against
    the CLEAN build. *)
From Coq Require Import ZArith List Lia Bool.
From Verif Require Import Base Bits SaberPoly Ring SaberRing DilArith DilNtt DilNttProof DilNttEval DilNttSpec DilPoly DilPack DilCodec DilCodec2 DilHint DilOps DilSample DilRound DilSign DilCorrect DilProps
  DilRing DilSpec DilSpec2 DilShake2 AvxMachine AvxSym AvxSymOk AvxNtt AvxPoint AvxPoly AvxBytes AvxBytesOk AvxCodecOk AvxSign AvxSample AvxSignOk AvxSignOk2 AvxVerifyOk.
Import ListNotations.
Open Scope Z_scope.
Local Opaque root positions ev negacyclic H256 poly_challenge polyw1_pack unpack_sig unpack_pk.

(** ** Specification *)
(** What a signature and a public key determine: the decoded signature (c, z, h) and the
    recomputed commitment w = A z - SampleInBall(c) t1 2^13. *)
Definition decoded (fuel : nat) (X : xof) (sig pk c : bytes) (z h w : polyvec) : Prop :=
  length sig = 2420%nat /\ unpack_sig sig = Some (c, z, h) /\
  exists cp A, let '(rho, t1) := unpack_pk pk in
    poly_challenge fuel X c = CRet cp /\ public_matrix fuel X rho A /\ shaped w /\
    every (fun i k => 0 <= co w i k < 8380417 /\
      cq (co w i k) (dot (nth i A []) z k - negacyclic 256 cp (nth i t1 []) k * 8192)).
(** The bound of the specification on z. *)
Definition z_short (z : polyvec) : Prop := every (fun i k => Z.abs (co z i k) < 131072 - 78).
(** The challenge belongs to the high parts [w1]. *)
Definition closes (X : xof) (m pk c : bytes) (w1 : polyvec) : Prop :=
  c = H256 X 32 (H256 X 64 (H256 X 64 pk ++ m) ++ polyveck_pack_w1 w1).
(** A hinted high part moves up when the low part is positive or zero; the specification (and
    [repaired], the CLEAN build) moves it up only when the low part is positive. *)
Definition repaired_up (r h v : Z) : Prop := exists r1 r0, high_low r r1 r0 /\
  v = (if h =? 0 then r1 else if 0 <=? r0 then (r1 + 1) mod 44 else (r1 - 1) mod 44).
(** What the AVX2 build accepts. *)
Definition valid_avx_spec (fuel : nat) (X : xof) (sig m pk : bytes) : Prop :=
  exists c z h w w1, decoded fuel X sig pk c z h w /\ shaped w1 /\
    every (fun i k => repaired_up (co w i k) (co h i k) (co w1 i k)) /\ closes X m pk c w1.
(** A coefficient on which the two rules differ: hinted, with low part zero. *)
Definition zero_hinted (h w : polyvec) (i k : nat) : Prop :=
  co h i k = 1 /\ exists r1, high_low (co w i k) r1 0.

(** ** Lanes *)
Lemma up_mod : forall a1 a0, 0 <= a1 < 44 ->
  (if 0 <=? a0 then (if a1 =? 43 then 0 else a1 + 1) else (if a1 =? 0 then 43 else a1 - 1)) =
  (if 0 <=? a0 then (a1 + 1) mod 44 else (a1 - 1) mod 44).
Proof.
  intros a1 a0 R. destruct (0 <=? a0).
  - destruct (Z.eqb_spec a1 43) as [-> | N]; [reflexivity|]. rewrite Z.mod_small by lia. reflexivity.
  - destruct (Z.eqb_spec a1 0) as [-> | N]; [reflexivity|]. rewrite Z.mod_small by lia. reflexivity.
Qed.
Lemma lane_repaired : forall a h v, 0 <= a < Q -> bit h -> (use_hint_lane a h = v <-> repaired_up a h v).
Proof.
  intros a h v Ha Hh. destruct (decompose_ok a Ha) as (a1 & a0 & E & D).
  rewrite (use_hint_lane_ok a h a1 a0 Ha Hh E). assert (R : 0 <= a1 < 44) by (unfold decomposed in D; lia).
  rewrite up_mod by exact R. split.
  - intros <-. exists a1, a0. split; [apply high_low_dec; exact D|reflexivity].
  - intros (r1 & r0 & D' & ->). apply high_low_dec in D'. destruct (decomposed_unique a _ _ _ _ Ha D D') as [-> ->]. reflexivity.
Qed.
Lemma hint_bits : forall h i k, length h = 4%nat -> hint_vec h -> (i < 4)%nat -> (k < 256)%nat -> bit (at_ (vat h i) k).
Proof.
  intros h i k L V Hi Hk. unfold hint_vec in V. rewrite Forall_forall in V. destruct (V (vat h i)) as [Lr Fr]; [apply nth_In; lia|].
  exact (proj1 (pol_Forall bit _ Lr) Fr k Hk).
Qed.
Lemma map2_vat : forall (f : poly -> poly -> poly) w h i, length w = 4%nat -> length h = 4%nat -> (i < 4)%nat ->
  vat (map2 f w h) i = f (vat w i) (vat h i).
Proof.
  intros f w h i Lw Lh Hi. destruct w as [|w0 [|w1 [|w2 [|w3 [|? ?]]]]]; try discriminate Lw.
  destruct h as [|h0 [|h1 [|h2 [|h3 [|? ?]]]]]; try discriminate Lh.
  destruct i as [|[|[|[|i]]]]; try reflexivity. lia.
Qed.
Lemma hint_avx_at : forall w h i k, vec std w -> length h = 4%nat -> hint_vec h -> (i < 4)%nat -> (k < 256)%nat ->
  co (map2 use_hint_avx w h) i k = use_hint_lane (co w i k) (co h i k).
Proof.
  intros w h i k [Lw Sw] Lh Vh Hi Hk. rewrite !co_at. rewrite map2_vat by assumption. unfold use_hint_avx.
  destruct (Sw i Hi) as [L _]. pose proof (proj2 (hint_rows_256 h Lh Vh) i Hi) as Lr. cbv beta in Lr.
  apply AvxVerifyOk.at_map2; rewrite ?L, ?Lr; (exact Hk || reflexivity).
Qed.
Lemma hint_avx_shaped : forall w h, vec std w -> length h = 4%nat -> hint_vec h -> shaped (map2 use_hint_avx w h).
Proof.
  intros w h [Lw Sw] Lh Vh. split; [rewrite map2_length, Lw, Lh; reflexivity|]. intros i Hi. fold (vat (map2 use_hint_avx w h) i).
  rewrite map2_vat by assumption. unfold use_hint_avx. rewrite map2_length. destruct (Sw i Hi) as [L _].
  pose proof (proj2 (hint_rows_256 h Lh Vh) i Hi) as Lr. cbv beta in Lr. rewrite L, Lr. reflexivity.
Qed.
Lemma shaped_eq : forall v w, shaped v -> shaped w -> every (fun i k => co v i k = co w i k) -> v = w.
Proof.
  intros v w [Lv Sv] [Lw Sw] E. apply (nth_ext _ _ [] []); [congruence|]. intros i Hi. rewrite Lv in Hi.
  apply (nth_ext _ _ 0 0); [rewrite Sv, Sw by exact Hi; reflexivity|]. intros k Hk. rewrite Sv in Hk by exact Hi. apply E; assumption.
Qed.
Lemma hint_avx_vec : forall w h w1, vec std w -> length h = 4%nat -> hint_vec h ->
  (map2 use_hint_avx w h = w1 <-> shaped w1 /\ every (fun i k => repaired_up (co w i k) (co h i k) (co w1 i k))).
Proof.
  intros w h w1 Sw Lh Vh. split.
  - intros <-. split; [apply hint_avx_shaped; assumption|]. intros i k Hi Hk. rewrite hint_avx_at by assumption.
    apply lane_repaired; [apply (proj2 Sw i Hi); exact Hk|rewrite co_at; apply hint_bits; assumption|reflexivity].
  - intros [S E]. apply shaped_eq; [apply hint_avx_shaped; assumption|exact S|]. intros i k Hi Hk. rewrite hint_avx_at by assumption.
    apply lane_repaired; [apply (proj2 Sw i Hi); exact Hk|rewrite co_at; apply hint_bits; assumption|]. apply E; assumption.
Qed.

(** ** [decoded] and the algorithm *)
Lemma sig_shapes : forall sig c z h, length sig = 2420%nat -> is_bytes sig -> unpack_sig sig = Some (c, z, h) ->
  shaped z /\ length h = 4%nat /\ hint_vec h.
Proof.
  intros sig c z h Ls Bs Us. destruct (pack_unpack_sig sig c z h Ls Bs Us) as (Lc & Vz & Lh & Vh & Ho & _).
  split; [exact (vec4_shaped _ _ Vz)|]. auto.
Qed.
Lemma decoded_run : forall fuel X sig pk c z h w, length pk = 1312%nat -> is_bytes sig ->
  (decoded fuel X sig pk c z h w <-> length sig = 2420%nat /\ unpack_sig sig = Some (c, z, h) /\
    exists cp mat, poly_challenge fuel X c = CRet cp /\ polyvec_matrix_expand fuel X (fst (unpack_pk pk)) = CRet mat /\
      recomputed mat z (snd (unpack_pk pk)) cp w).
Proof.
  intros fuel X sig pk c z h w Lp Bs. pose proof (unpack_pk_vec pk Lp) as V1. unfold decoded.
  destruct (unpack_pk pk) as [rho t1]. cbn [fst snd] in *. split.
  - intros (Ls & Us & cp & A & Ec & PA & Sw & Hw). split; [exact Ls|]. split; [exact Us|].
    destruct (sig_shapes sig c z h Ls Bs Us) as (Sz & _).
    destruct (expand_defined _ _ _ _ PA) as (mat & Em). pose proof (public_entries _ _ _ _ _ Em PA) as EA.
    pose proof (proj1 (safe_inv _ _ _ (challenge_pol fuel X c) Ec)) as Lc.
    exists cp, mat. split; [exact Ec|]. split; [exact Em|].
    exact (proj2 (recomputed_ring fuel X rho mat A z t1 cp w Em EA Sz (vec4_shaped _ _ V1) Lc) (conj Sw Hw)).
  - intros (Ls & Us & cp & mat & Ec & Em & R). split; [exact Ls|]. split; [exact Us|].
    destruct (sig_shapes sig c z h Ls Bs Us) as (Sz & _).
    destruct (matrix_ring fuel X rho mat Em) as (A & PA & EA).
    pose proof (proj1 (safe_inv _ _ _ (challenge_pol fuel X c) Ec)) as Lc.
    pose proof (proj1 (recomputed_ring fuel X rho mat A z t1 cp w Em EA Sz (vec4_shaped _ _ V1) Lc) R) as [Sw Hw].
    exists cp, A. auto.
Qed.
(** A signature and a key determine at most one decoding. *)
Lemma decoded_unique : forall fuel X sig pk c z h w c' z' h' w', length pk = 1312%nat -> is_bytes sig ->
  decoded fuel X sig pk c z h w -> decoded fuel X sig pk c' z' h' w' -> c = c' /\ z = z' /\ h = h' /\ w = w'.
Proof.
  intros fuel X sig pk c z h w c' z' h' w' Lp Bs D D'. apply decoded_run in D; [|assumption|assumption]. apply decoded_run in D'; [|assumption|assumption].
  destruct D as (_ & Us & cp & mat & Ec & Em & R). destruct D' as (_ & Us' & cp' & mat' & Ec' & Em' & R').
  rewrite Us in Us'. apply Some_triple_inj in Us'. destruct Us' as (<- & <- & <-). assert (cp' = cp) as -> by congruence.
  assert (mat' = mat) as -> by congruence. rewrite (recomputed_unique _ _ _ _ _ _ R R'). auto.
Qed.
Lemma decoded_std : forall fuel X sig pk c z h w, length pk = 1312%nat -> is_bytes sig ->
  decoded fuel X sig pk c z h w -> vec std w /\ length h = 4%nat /\ hint_vec h.
Proof.
  intros fuel X sig pk c z h w Lp Bs D. pose proof D as (Ls & Us & _). destruct (sig_shapes sig c z h Ls Bs Us) as (_ & Lh & Vh).
  apply decoded_run in D; [|assumption|assumption]. destruct D as (_ & _ & cp & mat & _ & _ & R). split; [exact (proj1 R)|auto].
Qed.

(** The specification of C61 in the same terms. *)
Lemma valid_spec_decoded : forall fuel X sig m pk, valid_spec fuel X sig m pk <->
  exists c z h w w1, decoded fuel X sig pk c z h w /\ z_short z /\ shaped w1 /\
    every (fun i k => repaired (co w i k) (co h i k) (co w1 i k)) /\ closes X m pk c w1.
Proof.
  intros fuel X sig m pk. unfold valid_spec, decoded, z_short, closes. destruct (unpack_pk pk) as [rho t1]. split.
  - intros (Ls & c & z & h & cp & A & w & w1 & Us & Bz & Ec & PA & Sw & S1 & Hw & Hh & G). exists c, z, h, w, w1.
    split; [|repeat (split; [assumption|]); exact G]. split; [exact Ls|]. split; [exact Us|]. exists cp, A. auto.
  - intros (c & z & h & w & w1 & (Ls & Us & cp & A & Ec & PA & Sw & Hw) & Bz & S1 & Hh & G). split; [exact Ls|].
    exists c, z, h, cp, A, w, w1. repeat (split; [assumption|]). exact G.
Qed.

(** ** The theorems *)
(** For every register and memory contents, the AVX2 verifier never reads or writes out of
    bounds and accepts exactly [valid_avx_spec]. *)
Theorem avx_verify_spec : forall e fuel X sig m pk, ctx_ok e -> length pk = 1312%nat -> is_bytes sig ->
  verify_signature_avx e fuel X sig m pk <> CUB /\
  (verify_signature_avx e fuel X sig m pk = CRet true <-> valid_avx_spec fuel X sig m pk).
Proof.
  intros e fuel X sig m pk He Lp Bs. destruct (avx_verify_run e fuel X sig m pk He Lp Bs) as [NU IFF]. split; [exact NU|].
  rewrite IFF. unfold valid_avx, valid_avx_spec. split.
  - intros (Ls & c & z & h & cp & mat & w & Us & Ec & Em & R & G). destruct (sig_shapes sig c z h Ls Bs Us) as (_ & Lh & Vh).
    exists c, z, h, w, (map2 use_hint_avx w h). split; [apply decoded_run; [assumption|assumption|]; split; [exact Ls|]; split; [exact Us|]; exists cp, mat; auto|].
    destruct (proj1 (hint_avx_vec w h _ (proj1 R) Lh Vh) eq_refl) as [S1 H1]. split; [exact S1|]. split; [exact H1|exact G].
  - intros (c & z & h & w & w1 & D & S1 & H1 & G). destruct (decoded_std _ _ _ _ _ _ _ _ Lp Bs D) as (Sw & Lh & Vh).
    apply decoded_run in D; [|assumption|assumption]. destruct D as (Ls & Us & cp & mat & Ec & Em & R).
    split; [exact Ls|]. exists c, z, h, cp, mat, w. repeat (split; [assumption|]).
    rewrite (proj2 (hint_avx_vec w h w1 Sw Lh Vh) (conj S1 H1)). exact G.
Qed.
(** Both rules give the same high part unless the coefficient is hinted with low part zero ... *)
Lemma rules_agree : forall h w i k v, bit (co h i k) -> ~ zero_hinted h w i k ->
  (repaired (co w i k) (co h i k) v <-> repaired_up (co w i k) (co h i k) v).
Proof.
  intros h w i k v B N. unfold repaired, repaired_up.
  assert (G : forall r1 r0, high_low (co w i k) r1 r0 ->
    (if co h i k =? 0 then r1 else if 0 <? r0 then (r1 + 1) mod 44 else (r1 - 1) mod 44) =
    (if co h i k =? 0 then r1 else if 0 <=? r0 then (r1 + 1) mod 44 else (r1 - 1) mod 44)).
  { intros r1 r0 D. destruct B as [B | B]; rewrite B; [reflexivity|]. cbn [Z.eqb].
    assert (r0 <> 0) by (intros ->; apply N; split; [exact B|exists r1; exact D]).
    destruct (Z.ltb_spec 0 r0); destruct (Z.leb_spec 0 r0); try reflexivity; lia. }
  split; intros (r1 & r0 & D & E); exists r1, r0; (split; [exact D|]); rewrite E; [|symmetry]; apply G; exact D.
Qed.
(** ... so the builds agree on every signature whose z is short and none of whose hinted
    coefficients has low part zero. *)
Theorem avx_clean_agree : forall e fuel X sig m pk, ctx_ok e -> length pk = 1312%nat -> is_bytes sig ->
  (forall c z h w, decoded fuel X sig pk c z h w -> z_short z /\ every (fun i k => ~ zero_hinted h w i k)) ->
  (verify_signature_avx e fuel X sig m pk = CRet true <-> verify_signature fuel X sig m pk = CRet true).
Proof.
  intros e fuel X sig m pk He Lp Bs H. rewrite (proj2 (avx_verify_spec e fuel X sig m pk He Lp Bs)), (dil_verify_spec fuel X sig m pk Lp Bs), valid_spec_decoded.
  split.
  - intros (c & z & h & w & w1 & D & S1 & H1 & G). destruct (H c z h w D) as [Z N]. destruct (decoded_std _ _ _ _ _ _ _ _ Lp Bs D) as (_ & Lh & Vh).
    exists c, z, h, w, w1. split; [exact D|]. split; [exact Z|]. split; [exact S1|]. split; [|exact G].
    intros i k Hi Hk. apply rules_agree; [rewrite co_at; apply hint_bits; assumption|apply N; assumption|apply H1; assumption].
  - intros (c & z & h & w & w1 & D & Z & S1 & H1 & G). destruct (H c z h w D) as [_ N]. destruct (decoded_std _ _ _ _ _ _ _ _ Lp Bs D) as (_ & Lh & Vh).
    exists c, z, h, w, w1. split; [exact D|]. split; [exact S1|]. split; [|exact G].
    intros i k Hi Hk. apply rules_agree; [rewrite co_at; apply hint_bits; assumption|apply N; assumption|apply H1; assumption].
Qed.
(** What only the AVX2 build accepts: its z is not short, or it has a zero-hinted coefficient. *)
Theorem avx_only : forall e fuel X sig m pk, ctx_ok e -> length pk = 1312%nat -> is_bytes sig ->
  verify_signature_avx e fuel X sig m pk = CRet true -> verify_signature fuel X sig m pk <> CRet true ->
  exists c z h w, decoded fuel X sig pk c z h w /\
    ((exists i k, (i < 4)%nat /\ (k < 256)%nat /\ 131072 - 78 <= Z.abs (co z i k)) \/
     (exists i k, (i < 4)%nat /\ (k < 256)%nat /\ zero_hinted h w i k)).
Proof.
  intros e fuel X sig m pk He Lp Bs A N. apply (avx_verify_spec e fuel X sig m pk He Lp Bs) in A. rewrite (dil_verify_spec fuel X sig m pk Lp Bs), valid_spec_decoded in N.
  destruct A as (c & z & h & w & w1 & D & S1 & H1 & G). exists c, z, h, w. split; [exact D|].
  destruct (decoded_std _ _ _ _ _ _ _ _ Lp Bs D) as (Sw & Lh & Vh).
  assert (DZ : z_short z \/ exists i k, (i < 4)%nat /\ (k < 256)%nat /\ 131072 - 78 <= Z.abs (co z i k)).
  { destruct (forallb (fun i => forallb (fun k => Z.abs (co z i k) <? 131072 - 78) (seq 0 256)) (seq 0 4)) eqn:F.
    - left. intros i k Hi Hk. rewrite forallb_forall in F. specialize (F i ltac:(apply in_seq; lia)).
      rewrite forallb_forall in F. apply Z.ltb_lt. apply F. apply in_seq. lia.
    - right. assert (X1 : forall f l, forallb f l = false -> exists x : nat, In x l /\ f x = false).
      { intros f l. induction l as [|x l IH]; intro E; [discriminate E|]. cbn [forallb] in E. destruct (f x) eqn:Ex.
        - destruct (IH E) as (y & Iy & Ey). exists y. split; [right; exact Iy|exact Ey].
        - exists x. split; [left; reflexivity|exact Ex]. }
      destruct (X1 _ _ F) as (i & Ii & Ei). destruct (X1 _ _ Ei) as (k & Ik & Ek). apply in_seq in Ii. apply in_seq in Ik. apply Z.ltb_ge in Ek.
      exists i, k. split; [lia|]. split; [lia|exact Ek]. }
  destruct DZ as [Z | Z]; [|left; exact Z].
  assert (DH : forall i k, (i < 4)%nat -> (k < 256)%nat -> zero_hinted h w i k \/ ~ zero_hinted h w i k).
  { intros i k Hi Hk. assert (Bw : 0 <= co w i k < Q) by (apply (proj2 Sw i Hi); exact Hk). unfold zero_hinted.
    destruct (Z.eq_dec (co h i k) 1) as [E | E]; [|right; intros [? _]; contradiction].
    destruct (decompose_ok _ Bw) as (r1 & r0 & _ & Dr). destruct (Z.eq_dec r0 0) as [-> | Nz].
    - left. split; [exact E|]. exists r1. apply high_low_dec. exact Dr.
    - right. intros [_ (r1' & D')]. apply high_low_dec in D'. destruct (decomposed_unique _ _ _ _ _ Bw Dr D') as [_ ->]. apply Nz. reflexivity. }
  right.
  assert (X2 : forall n, (n <= 1024)%nat -> (exists i k, (i < 4)%nat /\ (k < 256)%nat /\ zero_hinted h w i k) \/
    (forall j, (j < n)%nat -> ~ zero_hinted h w (j / 256) (j mod 256))).
  { induction n as [|n IH]; intro Hn; [right; intros j Hj; lia|]. destruct (IH ltac:(lia)) as [Y | Y]; [left; exact Y|].
    assert (n / 256 < 4)%nat by (apply Nat.div_lt_upper_bound; lia). pose proof (Nat.mod_upper_bound n 256 ltac:(lia)).
    destruct (DH (n / 256)%nat (n mod 256)%nat ltac:(assumption) ltac:(assumption)) as [Y' | Y'].
    - left. exists (n / 256)%nat, (n mod 256)%nat. auto.
    - right. intros j Hj. destruct (Nat.eq_dec j n) as [-> | Ne]; [exact Y'|]. apply Y. lia. }
  destruct (X2 1024%nat ltac:(lia)) as [Y | Y]; [exact Y|]. exfalso. apply N. exists c, z, h, w, w1.
  split; [exact D|]. split; [exact Z|]. split; [exact S1|]. split; [|exact G].
  intros i k Hi Hk. apply rules_agree; [rewrite co_at; apply hint_bits; assumption| |apply H1; assumption].
  specialize (Y (256 * i + k)%nat ltac:(lia)).
  replace ((256 * i + k) / 256)%nat with i in Y by (apply (Nat.div_unique _ 256 i k); lia).
  replace ((256 * i + k) mod 256)%nat with k in Y by (apply (Nat.mod_unique _ 256 i k); lia). exact Y.
Qed.

(** ** Honest signatures *)
(** An honest hint is never at a coefficient of low part zero. *)
Lemma honest_hint : forall w1 a0 r, 0 <= w1 < 44 -> -190386 < a0 < 190386 -> 0 <= r < Q -> eqq r (w1 * (2 * GAMMA2) + a0) ->
  use_hint_lane r (make_hint a0 w1) = w1.
Proof.
  intros w1 a0 r H1 H0 Hr E. pose proof (hint_recovers w1 a0 r H1 ltac:(unfold GAMMA2; lia) Hr E) as U.
  destruct (decompose_ok r Hr) as (b1 & b0 & Ed & D). rewrite (use_hint_lane_ok r _ b1 b0 Hr (make_hint_bit _ _) Ed).
  unfold use_hint in U. rewrite Ed in U. cbn [cbind] in U.
  destruct (make_hint a0 w1 =? 0) eqn:Em; [clear - U; injection U as ->; reflexivity|].
  assert (Nz : b0 <> 0).
  { intros ->. destruct E as [k E]. unfold make_hint, decomposed, GAMMA2, Q in *. assert (K : k = 0 \/ k = 1 \/ k = -1) by lia.
    change (- (95232)) with (-95232) in *.
    destruct (Z.ltb_spec 95232 a0); [|destruct (Z.ltb_spec a0 (-95232));
      [|destruct (Z.eqb_spec a0 (-95232)); [destruct (Z.eqb_spec w1 0)|]]]; cbn [orb andb negb Z.eqb] in Em; try discriminate Em; lia. }
  destruct (Z.ltb_spec 0 b0); destruct (Z.leb_spec 0 b0); try lia;
    [destruct (b1 =? 43)|destruct (b1 =? 0)]; clear - U; injection U as U; exact U.
Qed.
Lemma valid_avx_mono : forall f f' X sig m pk, (f <= f')%nat -> valid_avx f X sig m pk -> valid_avx f' X sig m pk.
Proof.
  intros f f' X sig m pk F (Ls & c & z & h & cp & mat & w & Us & Ec & Em & R & G). split; [exact Ls|]. exists c, z, h, cp, mat, w.
  split; [exact Us|]. split; [apply (poly_challenge_mono f f'); assumption|]. split; [apply (matrix_expand_mono f f'); assumption|]. split; assumption.
Qed.
(** The budget does not matter once verification has returned [true]. *)
Theorem avx_verify_mono : forall e e' f f' X sig m pk, ctx_ok e -> ctx_ok e' -> length pk = 1312%nat -> is_bytes sig -> (f <= f')%nat ->
  verify_signature_avx e f X sig m pk = CRet true -> verify_signature_avx e' f' X sig m pk = CRet true.
Proof.
  intros e e' f f' X sig m pk He He' Lp Bs F H. apply (avx_verify_run e' f' X sig m pk He' Lp Bs). apply (valid_avx_mono f f' _ _ _ _ F).
  apply (avx_verify_run e f X sig m pk He Lp Bs). exact H.
Qed.
(** Every signature made under a generated key, by either build, is accepted by the AVX2
    verifier. *)
Theorem avx_complete : forall e f1 a f2 f3 X coins pk sk m sig, ctx_ok e ->
  keypair_det f1 X coins = CRet (pk, sk) -> sign_signature a f2 X m sk = CRet sig -> (f2 <= f3)%nat ->
  verify_signature_avx e f3 X sig m pk = CRet true.
Proof.
  intros e f1 a f2 f3 X coins pk sk m sig He HK HS F3.
  destruct (dil_keypair_sizes _ _ _ _ _ HK) as [Lpk Lsk]. pose proof (sign_bytes _ _ _ _ _ _ Lsk HS) as Bs.
  pose proof (safe_inv _ _ _ (keypair_ok f1 X coins) HK) as K. cbn [fst snd] in K.
  destruct K as (rho & key & mat & t1 & t0 & s1 & s2 & _ & Lr & Lk & Em & M & V1 & V2 & W1 & W0 & Epk & Esk & KE).
  pose proof (safe_inv _ _ _ (sign_signature_ok a f2 X m sk Lsk) HS) as A. cbv beta in A.
  destruct A as (rho' & tr & key' & t0' & s1' & s2' & mat' & U & Em' & M' & A).
  assert (U' : unpack_sk sk = (rho, H256 X 64 pk, key, t0, s1, s2)).
  { rewrite Esk. apply unpack_pack_sk; auto using H256_length.
    - eapply vec4_impl; [|exact V1]. unfold eta_range. intros; lia.
    - eapply vec4_impl; [|exact V2]. unfold eta_range. intros; lia. }
  rewrite U' in U.
  repeat (apply pair_equal_spec in U; let H := fresh in destruct U as [U H]; symmetry in H). symmetry in U. subst rho' tr key' t0' s1' s2'.
  assert (mat' = mat) as ->.
  { apply (matrix_expand_mono f2 (Nat.max f1 f2)) in Em'; [|lia]. apply (matrix_expand_mono f1 (Nat.max f1 f2)) in Em; [|lia]. congruence. }
  destruct A as (ct & c & z & h & w1 & a0 & g & Es & Ect & Ec & Vz & Lh & Vh & Ho & Vw & Va & Ah & Lg & Eg & EVg).
  assert (Lct : length ct = 32%nat) by (rewrite Ect; apply H256_length).
  assert (Vz' : vec4 z_range z).
  { eapply vec4_impl; [|exact Vz]. unfold z_range, GAMMA1, BETA. intros x Hx. lia. }
  destruct (unpack_pack_sig ct z h Lct Vz' Lh Vh Ho) as (sig' & Es' & Ls & Us).
  assert (sig' = sig) as -> by congruence. clear Es'.
  assert (Up : unpack_pk pk = (rho, t1)) by (rewrite Epk; apply unpack_pack_pk; assumption).
  apply (avx_verify_run e f3 X sig m pk He Lpk Bs). apply (valid_avx_mono f2 f3 _ _ _ _ F3).
  destruct (verify_run f2 X sig m pk rho t1 ct z h c mat Ls Up W1 Us Vz Ec Em') as (w & [Sw Ew] & _).
  split; [exact Ls|]. exists ct, z, h, c, mat, w. rewrite Up. cbn [fst snd]. split; [exact Us|]. split; [exact Ec|]. split; [exact Em'|].
  split; [split; assumption|].
  assert (UH : map2 use_hint_avx w h = w1).
  { apply vec4_at in Vw. apply vec4_at in Va. apply shaped_eq; [apply hint_avx_shaped; assumption| |].
    - eapply vec_shaped; [exact Vw|]. intros x [L _]; exact L.
    - intros i p Hi Hp. rewrite hint_avx_at by assumption. rewrite !co_at. rewrite Ah by assumption.
      destruct Vw as [_ Vw]. destruct (Vw i Hi) as [_ Vw']. pose proof (Vw' p Hp) as Hw.
      destruct Va as [_ Va]. destruct (Va i Hi) as [_ Va']. pose proof (Va' p Hp) as Ha.
      pose proof Sw as [_ Sw1]. destruct (Sw1 i Hi) as [_ Sw']. pose proof (Sw' p Hp) as Hs.
      cbv beta in Ha. apply honest_hint; [exact Hw|unfold GAMMA2, BETA in *; lia|exact Hs|].
      eapply eqq_trans; [|apply Eg; assumption].
      apply ev_inj; [|exact Hp]. intros q Hq.
      eapply eqq_trans; [apply Ew; assumption|]. apply eqq_sym. eapply eqq_trans; [apply EVg; assumption|].
      pose proof (KE i Hi q Hq) as G. revert G.
      generalize (mrow mat z i q) (ev q c) (mrow mat s1 i q) (ev q (vat s2 i)) (ev q (vat t0 i)) (ev q (vat t1 i)).
      intros mz ec ms es e0 e1 [k E]. exists (ec * k). replace (ms + es) with (e1 * 8192 + e0 - k * Q) by lia. ring. }
  rewrite UH. exact Ect.
Qed.
(** [crypto_sign_open] opens exactly what verifies. *)
Theorem avx_open_iff : forall e f X sm pk m, crypto_sign_open_avx e f X sm pk = CRet (Some m) <->
  exists sig, sm = sig ++ m /\ length sig = 2420%nat /\ verify_signature_avx e f X sig m pk = CRet true.
Proof.
  intros e f X sm pk m. unfold crypto_sign_open_avx. cbv zeta. split.
  - destruct (Nat.ltb_spec (length sm) 2420); [discriminate|].
    destruct (verify_signature_avx e f X (firstn 2420 sm) (skipn 2420 sm) pk) as [b| |] eqn:E; try discriminate. cbn [cbind].
    destruct b; [|discriminate]. intro G. assert (m = skipn 2420 sm) as -> by congruence.
    exists (firstn 2420 sm). split; [symmetry; apply firstn_skipn|]. split; [rewrite firstn_length; lia|exact E].
  - intros (sig & -> & L & V). rewrite app_length, L. destruct (Nat.ltb_spec (2420 + length m) 2420); [lia|].
    rewrite firstn_app, skipn_app, L, Nat.sub_diag. rewrite (firstn_all2 sig) by lia. rewrite (skipn_all2 sig) by lia.
    change (firstn 0 m) with (@nil Z). change (skipn 0 m) with m. rewrite app_nil_r. cbn [app]. rewrite V. reflexivity.
Qed.
(** Sign with one build, open with the other. *)
Theorem avx_sign_open : forall e f1 a f2 f3 X coins pk sk m sm, ctx_ok e ->
  keypair_det f1 X coins = CRet (pk, sk) -> crypto_sign a f2 X m sk = CRet sm -> (f2 <= f3)%nat ->
  crypto_sign_open_avx e f3 X sm pk = CRet (Some m).
Proof.
  intros e f1 a f2 f3 X coins pk sk m sm He HK HS F3. unfold crypto_sign in HS.
  destruct (sign_signature a f2 X m sk) as [sig| |] eqn:E; try discriminate HS. cbn [cbind] in HS.
  assert (sm = sig ++ m) as -> by congruence.
  destruct (dil_keypair_sizes _ _ _ _ _ HK) as [_ Lsk]. destruct (dil_signature_shape a f2 X m sk sig Lsk E) as [Ls _].
  apply avx_open_iff. exists sig. split; [reflexivity|]. split; [exact Ls|]. exact (avx_complete e f1 a f2 f3 X coins pk sk m sig He HK E F3).
Qed.
