(** * PropsFg2: what an accepted MAC of FG-IBKE-C proves (fg_ibke.rs 112-279) (C89). *)
From Coq Require Import ZArith List Lia Bool String.
From Verif Require Import Base Crypto Symmetric PropsSym Driver Pakes PropsPake Ibkes IbkeSpec
  PropsFg IbkeToy PropsMatch PropsMatch2 PropsBind PropsConv PropsConv2 PropsKc.
Import ListNotations.
Open Scope Z_scope.
Local Opaque bytes_of draw expand extract hmac compress str.

(** ** Specification *)
(** The two MACs and the key before finalisation are the thirds of HKDF-Expand over the encodings of
    the two shared points; two different pairs of points with one MAC, [n] being 0 or 32. *)
Definition fg_collide (P : prims) (G : group) (n : nat) (a b a' b' : point G) : Prop :=
  collide_at P n (compress G a ++ compress G b) (str "fg-expand") (compress G a' ++ compress G b') (str "fg-expand").
(** The shared points of the owner of [cert] with ephemeral [x]: with the ephemeral point [eph] of
    somebody, and with the sum of [eph] and the public key of (id, X) under the main key [mp]. *)
Definition shared (P : prims) (G : group) (mp : point G) (cert : fg_cert G) (x : scalar G) (eph : point G) (id : bytes) (X : point G) : point G * point G :=
  (g_mul G eph x, g_mul G (g_add G (g_add G eph X) (g_mul G mp (fg_hash P G id (compress G X)))) (s_add G x (fgc_xhat cert))).

(** ** Proofs *)
Lemma compress_inj : forall G, group_laws G -> forall a b, compress G a = compress G b -> a = b.
Proof. intros G GL a b E. pose proof (gl_decompress G GL a) as A. pose proof (gl_decompress G GL b) as B. rewrite E in A. congruence. Qed.
Lemma shared_eq : forall P G mp cert x eph id X, shared P G mp cert x eph id X = (fg_alpha G x eph, fg_beta P G mp x (fgc_xhat cert) eph id X).
Proof. reflexivity. Qed.
Lemma fg_seg : forall P G, group_laws G -> forall n a b a' b',
  firstn 32 (skipn n (fg_okm P G a' b')) = firstn 32 (skipn n (fg_okm P G a b)) -> (a' = a /\ b' = b) \/ fg_collide P G n a b a' b'.
Proof.
  intros P G GL n a b a' b' E. unfold fg_okm in E. destruct (list_eq_dec Z.eq_dec (compress G a' ++ compress G b') (compress G a ++ compress G b)) as [K|K].
  - left. apply app_split in K; [|rewrite !compress_length; reflexivity]. destruct K as [K1 K2]. split; apply (compress_inj G GL); assumption.
  - right. split; [left; exact K|exact E].
Qed.
Lemma fg_hello_length : forall G cert x, List.length (fgc_id cert) = 32%nat -> List.length (fg_hello G cert x) = 96%nat.
Proof. intros G cert x L. unfold fg_hello. rewrite !app_length, !compress_length, L. reflexivity. Qed.
(** A completed initiator accepted some tag t at the end of the second message.  A responder session of
    anybody that sent t, whatever its ssid, main key and certificate and whatever it received, has the
    initiator's two shared points and key before finalisation, unless the tags of the two named pairs of
    points collide. *)
Theorem fg_initiator_matched : forall P G, group_laws G -> forall ssid mpk cert usk r l s, let I := FgIbkeC P G in
  hist (ibke_machine I) (fst (ik_new I r ssid mpk cert usk Initiator)) l s -> ik_done I s = true ->
  exists x id X eph mp t1 t0, let ab := shared P G mp cert x eph id X in
    mpk = compress G mp /\ List.length id = 32%nat /\ List.length t1 = 32%nat /\
    oks l = [([], Some (fg_hello G cert x)); (id ++ compress G X ++ compress G eph ++ t1, Some t0)] /\
    fg_key s = Some (fg_skey P G (fst ab) (snd ab)) /\
    forall ssid' mpk' cert' usk' r' l' s' m' b,
      hist (ibke_machine I) (fst (ik_new I r' ssid' mpk' cert' usk' Responder)) l' s' ->
      In (m', Ok (Some (b ++ t1))) l' ->
      exists y id' X' eph' mp', let ab' := shared P G mp' cert' y eph' id' X' in
        mpk' = compress G mp' /\ m' = id' ++ compress G X' ++ compress G eph' /\ b = fg_hello G cert' y /\
        fg_key s' = Some (fg_skey P G (fst ab') (snd ab')) /\
        (ab' = ab \/ fg_collide P G 32 (fst ab) (snd ab) (fst ab') (snd ab')).
Proof.
  intros P G GL ssid mpk cert usk r l s I H D. unfold I in *. clear I. apply (fgx_hist_I P G GL) in H. cbn [FgIbkeC ik_done IST] in D.
  destruct H as [_ [_ [[_ [D0 _]]|[x [[_ [D0 _]]|[_ [_ [id [X [eph [mp [EM [LI [_ [HK OK]]]]]]]]]]]]]]]; try congruence. cbn zeta in *.
  exists x, id, X, eph, mp. do 2 eexists. rewrite shared_eq. cbn [fst snd]. split; [exact EM|]. split; [exact LI|]. split; [|split; [exact OK|]]; [apply fg_mac_lengths|].
  split; [exact HK|]. intros ssid' mpk' cert' usk' r' l' s' m' b H' IN. apply (fgx_hist_R P G GL) in H'. apply ok_in_oks in IN.
  destruct H' as [_ [_ [[_ [_ OK']]|[y [id' [X' [eph' [mp' [rest [EM' [LI' [_ [HK' [_ [OK' RE]]]]]]]]]]]]]]]; cbn zeta in *; rewrite OK' in IN; [contradiction IN|].
  destruct IN as [IN|IN].
  2:{ exfalso. destruct RE as [[_ [_ ->]]|[_ [_ ->]]]; [contradiction IN|]. destruct IN as [IN|[]]. discriminate IN. }
  exists y, id', X', eph', mp'. rewrite shared_eq. cbn [fst snd].
  assert (E1 : m' = id' ++ compress G X' ++ compress G eph') by congruence.
  assert (E2 : b ++ fg_mac1 P G (fg_alpha G x eph) (fg_beta P G mp x (fgc_xhat cert) eph id X) =
    fg_hello G cert' y ++ fg_mac1 P G (fg_alpha G y eph') (fg_beta P G mp' y (fgc_xhat cert') eph' id' X')) by congruence. clear IN.
  apply app_split_r in E2; [|rewrite !(proj1 (proj2 (fg_mac_lengths P G _ _))); reflexivity]. destruct E2 as [E2 E3].
  split; [exact EM'|]. split; [exact E1|]. split; [exact E2|]. split; [exact HK'|].
  unfold fg_mac1 in E3. destruct (fg_seg P G GL 32 _ _ _ _ (eq_sym E3)) as [[-> ->]|C]; [left; reflexivity|right; exact C].
Qed.
(** A completed responder accepted some tag t.  An initiator session of anybody that sent t is complete
    and has the responder's two shared points and key before finalisation, unless the tags collide. *)
Theorem fg_responder_matched : forall P G, group_laws G -> forall ssid mpk cert usk r l s, let I := FgIbkeC P G in
  hist (ibke_machine I) (fst (ik_new I r ssid mpk cert usk Responder)) l s -> ik_done I s = true ->
  exists y id X eph mp t1 t0, let ab := shared P G mp cert y eph id X in
    mpk = compress G mp /\ List.length id = 32%nat /\
    oks l = [(id ++ compress G X ++ compress G eph, Some (fg_hello G cert y ++ t1)); (t0, None)] /\
    fg_key s = Some (fg_skey P G (fst ab) (snd ab)) /\
    forall ssid' mpk' cert' usk' r' l' s' m', List.length (fgc_id cert') = 32%nat ->
      hist (ibke_machine I) (fst (ik_new I r' ssid' mpk' cert' usk' Initiator)) l' s' ->
      In (m', Ok (Some t0)) l' ->
      exists x id' X' eph' mp' t1', let ab' := shared P G mp' cert' x eph' id' X' in
        mpk' = compress G mp' /\ m' = id' ++ compress G X' ++ compress G eph' ++ t1' /\
        ik_done I s' = true /\ fg_key s' = Some (fg_skey P G (fst ab') (snd ab')) /\
        ((ab' = ab /\ t1' = t1) \/ fg_collide P G 0 (fst ab) (snd ab) (fst ab') (snd ab')).
Proof.
  intros P G GL ssid mpk cert usk r l s I H D. unfold I in *. clear I. apply (fgx_hist_R P G GL) in H. cbn [FgIbkeC ik_done IST] in D.
  destruct H as [_ [_ [[_ [D0 _]]|[y [id [X [eph [mp [rest [EM [LI [_ [HK [_ [OK [[_ [D0 _]]|[_ [_ RE]]]]]]]]]]]]]]]]]]; try congruence. cbn zeta in *. subst rest.
  exists y, id, X, eph, mp. do 2 eexists. rewrite shared_eq. cbn [fst snd]. split; [exact EM|]. split; [exact LI|]. split; [exact OK|].
  split; [exact HK|]. intros ssid' mpk' cert' usk' r' l' s' m' LC H' IN. apply (fgx_hist_I P G GL) in H'. apply ok_in_oks in IN.
  destruct H' as [_ [_ [[_ [_ OK']]|[x [[_ [_ [_ OK']]]|[_ [D' [id' [X' [eph' [mp' [EM' [LI' [_ [HK' OK']]]]]]]]]]]]]]]; cbn zeta in *; rewrite OK' in IN.
  - contradiction IN.
  - exfalso. destruct IN as [IN|[]]. apply (f_equal snd) in IN. cbn [snd] in IN.
    assert (E : fg_hello G cert' x = fg_mac0 P G (fg_alpha G y eph) (fg_beta P G mp y (fgc_xhat cert) eph id X)) by congruence.
    apply (f_equal (@List.length Z)) in E. pose proof (fg_hello_length G cert' x LC). pose proof (proj1 (fg_mac_lengths P G (fg_alpha G y eph) (fg_beta P G mp y (fgc_xhat cert) eph id X))). clear - E H H0. lia.
  - destruct IN as [IN|[IN|[]]].
    + exfalso. apply (f_equal snd) in IN. cbn [snd] in IN.
      assert (E : fg_hello G cert' x = fg_mac0 P G (fg_alpha G y eph) (fg_beta P G mp y (fgc_xhat cert) eph id X)) by congruence.
      apply (f_equal (@List.length Z)) in E. pose proof (fg_hello_length G cert' x LC). pose proof (proj1 (fg_mac_lengths P G (fg_alpha G y eph) (fg_beta P G mp y (fgc_xhat cert) eph id X))). clear - E H H0. lia.
    + exists x, id', X', eph', mp'. eexists. rewrite shared_eq. cbn [fst snd].
      assert (E1 : m' = id' ++ compress G X' ++ compress G eph' ++ fg_mac1 P G (fg_alpha G x eph') (fg_beta P G mp' x (fgc_xhat cert') eph' id' X')) by congruence.
      assert (E3 : fg_mac0 P G (fg_alpha G x eph') (fg_beta P G mp' x (fgc_xhat cert') eph' id' X') = fg_mac0 P G (fg_alpha G y eph) (fg_beta P G mp y (fgc_xhat cert) eph id X)) by congruence.
      clear IN. split; [exact EM'|]. split; [exact E1|]. split; [exact D'|]. split; [exact HK'|].
      unfold fg_mac0 in E3. change (fg_okm P G ?u ?v) with (skipn 0 (fg_okm P G u v)) in E3.
      destruct (fg_seg P G GL 0 _ _ _ _ E3) as [[EA EB]|C]; [left; rewrite EA, EB; split; reflexivity|right; exact C].
Qed.

(** ** The hypotheses are met *)
(** In an honest run the responder sent the tag the initiator accepted, and the reverse. *)
Example fg_match_meets : exists mpk cert usk lI sI lR sR m0 b t1 t0, let I := FgIbkeC toy_prims toy_group in
  hist (ibke_machine I) (fst (ik_new I (fun _ => 0) [7] mpk cert usk Initiator)) lI sI /\ ik_done I sI = true /\
  hist (ibke_machine I) (fst (ik_new I (fun _ => 1) [7] mpk cert usk Responder)) lR sR /\ ik_done I sR = true /\
  List.length (fgc_id cert) = 32%nat /\ List.length t1 = 32%nat /\
  In (m0, Ok (Some (b ++ t1))) lR /\ In (b ++ t1, Ok (Some t0)) lI /\ In (t0, Ok None) lR.
Proof.
  destruct (gen_main (FgIbkeC toy_prims toy_group) (fun _ => 0)) as [[mpk msk] r'] eqn:GM.
  destruct (fg_enrolled_exists toy_prims toy_group msk (repeat 1 32)) as [cert [usk E]].
  assert (ID : List.length (repeat 1 32) = 32%nat) by reflexivity.
  destruct (agreement_gives_matched_histories _ _ _ (fg_ibke_agreement toy_prims toy_group toy_group_laws)
    _ _ _ _ _ _ _ _ _ _ [7] (fun _ => 0) (fun _ => 1) (fun _ => (fun _ => 0, fun _ => 0)) GM ID ID E E Logic.I) as [ms [lI [sI [lR [sR [k [LN [H [D [H' [D' [F [F' [OK OK']]]]]]]]]]]]]].
  destruct ms as [|m0 [|m1 [|m2 [|m3 ms]]]]; try discriminate LN. cbn [map app conv flip opt_bytes] in OK, OK'.
  destruct (fg_initiator_matched toy_prims toy_group toy_group_laws _ _ _ _ _ _ _ H D) as [x [id [X [eph [mp [t1 [t0 [_ [_ [L1 [O _]]]]]]]]]]].
  apply (f_equal oks) in OK as OKs. rewrite oks_as_log in OKs. rewrite OKs in O.
  assert (EM : m1 = (id ++ compress toy_group X ++ compress toy_group eph) ++ t1) by (rewrite <- !app_assoc; congruence).
  exists mpk, cert, usk, lI, sI, lR, sR, m0, (id ++ compress toy_group X ++ compress toy_group eph), t1, m2. cbv zeta.
  split; [exact H|]. split; [exact D|]. split; [exact H'|]. split; [exact D'|].
  split; [destruct (fg_enrolled _ _ _ _ _ _ _ _ _ GM E) as [_ [a ->]]; reflexivity|]. split; [exact L1|]. rewrite <- EM, OK, OK'.
  cbn. auto 10.
Qed.
