(** * PropsKc: what two KC-SPAKE2 sessions with one key, or one confirmation tag, have in common;
    CHIP over KC-SPAKE2 (C70). *)
From Coq Require Import ZArith List Lia Bool String.
From Verif Require Import Base Crypto Symmetric PropsSym Driver Pakes PropsPake IbkeSpec IbkeToy Chip PropsSigDh PropsChip
  Ibkes Eue Latke LatkeHist PropsMatch PropsMatch2 PropsBind PropsConv PropsConv2 PropsPanic2.
Import ListNotations.
Open Scope Z_scope.
Local Opaque bytes_of draw expand extract hmac compress str.

(* ------------------------------------------------------------------ *)
(** ** Specification *)
(** Two different inputs of HKDF-Expand whose 96-byte outputs agree on the 32 bytes at n. *)
Definition collide_at (P : prims) (n : nat) (k i k' i' : bytes) : Prop :=
  (k' <> k \/ i' <> i) /\ firstn 32 (skipn n (expand P k' i' 96)) = firstn 32 (skipn n (expand P k i 96)).
(** The string KC-SPAKE2 expands: password, protocol id, the two SPAKE2 messages, SPAKE2 key. *)
Definition kc_info (pw mi mr k : bytes) : bytes := pw ++ str "latke_kc_spake2" ++ mi ++ mr ++ k.
(** The tag of the responder, the tag of the initiator, the session key. *)
Definition tag_r (P : prims) (pw mi mr k : bytes) : bytes := firstn 32 (skipn 32 (expand P k (kc_info pw mi mr k) 96)).
Definition tag_i (P : prims) (pw mi mr k : bytes) : bytes := firstn 32 (skipn 0 (expand P k (kc_info pw mi mr k) 96)).
Definition kc_key_of (P : prims) (pw mi mr k : bytes) : bytes := firstn 32 (skipn 64 (expand P k (kc_info pw mi mr k) 96)).
(** The SPAKE2 crate's messages and keys have fixed sizes (33 and 32 bytes). *)
Definition spake_sizes (S : spake_crate) (n : nat) : Prop :=
  spake_sized S n /\ forall pw id r m k, sp_finish S (fst (fst (sp_start S pw id r))) m = Some k -> List.length k = 32%nat.

(* ------------------------------------------------------------------ *)
(** ** The exact log of a session *)
Section Log.
Variables (P : prims) (S : spake_crate) (r : rng) (ssid pw : bytes) (st0 : SPST S) (own : bytes) (r2 : rng).
Hypothesis START : sp_start S pw ssid r = (st0, own, r2).
Let M := pake_machine (KcSpakePake P S).
Definition kcx_I (l : log M) (s : kcspake S) : Prop :=
  kc_password s = pw /\ kc_first s = own /\
  ((kc_step s = 0%nat /\ kc_done s = false /\ kc_state s = Some st0 /\ PropsMatch.oks l = []) \/
   (kc_step s = 2%nat /\ kc_done s = false /\ (kc_state s = Some st0 \/ kc_state s = None) /\ PropsMatch.oks l = [([], Some own)]) \/
   (kc_step s = 4%nat /\ kc_done s = true /\ exists mr k, sp_finish S st0 mr = Some k /\ kc_key s = Some (kc_sess P pw own mr k) /\
      PropsMatch.oks l = [([], Some own); (mr ++ kc_mac_r P pw own mr k, Some (kc_mac_i P pw own mr k))])).
Definition kcx_R (l : log M) (s : kcspake S) : Prop :=
  kc_password s = pw /\ kc_first s = own /\
  ((kc_step s = 1%nat /\ kc_done s = false /\ kc_state s = Some st0 /\ PropsMatch.oks l = []) \/
   (exists mi k rest, sp_finish S st0 mi = Some k /\ kc_key s = Some (kc_sess P pw mi own k) /\
      kc_macs s = Some (kc_mac_i P pw mi own k, kc_mac_r P pw mi own k) /\
      PropsMatch.oks l = (mi, Some (own ++ kc_mac_r P pw mi own k)) :: rest /\
      ((kc_step s = 3%nat /\ kc_done s = false /\ rest = []) \/
       (kc_step s = 5%nat /\ kc_done s = true /\ rest = [(kc_mac_i P pw mi own k, None)])))).
Lemma kcx_hist_I : forall s0 r' l s, pk_new (KcSpakePake P S) r ssid pw Initiator = Ret (s0, r') -> hist M s0 l s -> kcx_I l s.
Proof.
  intros s0 r' l s N H. cbn [KcSpakePake pk_new] in N. unfold kc_new in N. rewrite START in N. injection N as <- _.
  induction H as [|l s rr m s' o H IH E]; [split; [reflexivity|]; split; [reflexivity|]; left; auto|].
  destruct IH as [EP [EF IH]]. cbn [M pake_machine m_run KcSpakePake pk_run] in E. unfold kc_run in E.
  destruct IH as [[ST [D [SS OK]]]|[[ST [D [SS OK]]]|[ST _]]]; rewrite ST in E; [| |discriminate E].
  - obi E. destruct m; [|discriminate]. injection E as <- <-. split; [exact EP|]. split; [exact EF|]. right. left.
    cbn [kc_step kc_done kc_state]. split; [reflexivity|]. split; [exact D|]. split; [left; exact SS|]. rewrite PropsMatch.oks_ok, OK, EF. reflexivity.
  - obi E. match goal with X : split_last _ _ = Ret _ |- _ => apply split_last_inv in X; destruct X as [-> LX] end.
    destruct SS as [SS|SS]; rewrite SS in *; [|discriminate].
    match goal with X : unwrap (Some _) = Ret _ |- _ => cbn [unwrap] in X; injection X as <- end.
    match goal with X : unwrap (sp_finish _ _ _) = Ret _ |- _ => destruct (sp_finish _ _ _) eqn:FN in X; [|discriminate X]; cbn [unwrap] in X; injection X as -> end.
    match goal with X : kc_derive _ _ _ _ _ = Ret _ |- _ => apply kc_derive_inv in X; destruct X as [LK X]; injection X as -> -> -> end.
    rewrite EP, EF in E. match type of E with (if beq ?u ?v then _ else _) = _ => destruct (beq u v) eqn:Q end; injection E as <- <-; (split; [first [reflexivity|exact EP]|]); (split; [exact EF || reflexivity|]).
    + apply beq_spec in Q. subst. right. right. cbn [kc_step kc_done kc_key]. split; [reflexivity|]. split; [reflexivity|]. do 2 eexists. split; [exact FN|]. split; [reflexivity|]. rewrite PropsMatch.oks_ok, OK. reflexivity.
    + right. left. cbn [kc_step kc_done kc_state]. rewrite PropsMatch.oks_err. auto.
Qed.
Lemma kcx_hist_R : forall s0 r' l s, pk_new (KcSpakePake P S) r ssid pw Responder = Ret (s0, r') -> hist M s0 l s -> kcx_R l s.
Proof.
  intros s0 r' l s N H. cbn [KcSpakePake pk_new] in N. unfold kc_new in N. rewrite START in N. injection N as <- _.
  induction H as [|l s rr m s' o H IH E]; [split; [reflexivity|]; split; [reflexivity|]; left; auto|].
  destruct IH as [EP [EF IH]]. cbn [M pake_machine m_run KcSpakePake pk_run] in E. unfold kc_run in E.
  destruct IH as [[ST [D [SS OK]]]|[mi [k [rest [FN [KY [MC [OK [[ST [D RE]]|[ST _]]]]]]]]]]; rewrite ST in E; [| |discriminate E].
  - rewrite SS in E. cbn [unwrap obind] in E. obi E.
    match goal with X : unwrap (sp_finish _ _ _) = Ret _ |- _ => destruct (sp_finish _ _ _) eqn:FN in X; [|discriminate X]; cbn [unwrap] in X; injection X as -> end.
    match goal with X : kc_derive _ _ _ _ _ = Ret _ |- _ => apply kc_derive_inv in X; destruct X as [LK X]; injection X as -> -> -> end.
    rewrite EP, EF in E. injection E as <- <-. split; [reflexivity || exact EP|]. split; [reflexivity || exact EF|]. right. do 3 eexists. cbn [kc_step kc_done kc_key kc_macs].
    split; [exact FN|]. split; [reflexivity|]. split; [reflexivity|]. split; [rewrite PropsMatch.oks_ok, OK; reflexivity|]. left. auto.
  - rewrite MC in E. cbn [unwrap obind] in E. subst rest.
    match type of E with (if beq ?u ?v then _ else _) = _ => destruct (beq u v) eqn:Q end; injection E as <- <-; (split; [exact EP|]); (split; [exact EF|]); right; exists mi, k; eexists; cbn [kc_step kc_done kc_key kc_macs].
    + apply beq_spec in Q. subst m. split; [exact FN|]. split; [exact KY|]. split; [reflexivity || exact MC|]. split; [rewrite PropsMatch.oks_ok, OK; reflexivity|]. right. cbn [kc_step kc_done]. auto.
    + split; [exact FN|]. split; [exact KY|]. split; [reflexivity || exact MC|]. split; [rewrite PropsMatch.oks_err, OK; reflexivity|]. left. auto.
Qed.
End Log.

(* ------------------------------------------------------------------ *)
(** ** Equal outputs, equal inputs *)
Lemma tag_i_eq : forall P pw mi mr k, kc_mac_i P pw mi mr k = tag_i P pw mi mr k.
Proof. reflexivity. Qed.
Lemma tag_r_eq : forall P pw mi mr k, kc_mac_r P pw mi mr k = tag_r P pw mi mr k.
Proof. reflexivity. Qed.
Lemma kc_key_eq : forall P pw mi mr k, kc_sess P pw mi mr k = kc_key_of P pw mi mr k.
Proof.
  intros. unfold kc_sess, kc_key_of, kc_okm. fold (kc_info pw mi mr k). rewrite firstn_all2; [reflexivity|].
  rewrite skipn_length, expand_length. reflexivity.
Qed.
Lemma seg_same_or_collide : forall P n k i k' i', firstn 32 (skipn n (expand P k' i' 96)) = firstn 32 (skipn n (expand P k i 96)) ->
  (k' = k /\ i' = i) \/ collide_at P n k i k' i'.
Proof.
  intros P n k i k' i' E. destruct (list_eq_dec Z.eq_dec k' k) as [A|A]; [|right; split; [left; exact A|exact E]].
  destruct (list_eq_dec Z.eq_dec i' i) as [B|B]; [left; auto|right; split; [right; exact B|exact E]].
Qed.
Lemma kc_info_inj : forall pw mi mr k pw' mi' mr' k', List.length mi' = List.length mi -> List.length mr' = List.length mr -> List.length k' = List.length k ->
  kc_info pw' mi' mr' k' = kc_info pw mi mr k -> pw' = pw /\ mi' = mi /\ mr' = mr /\ k' = k.
Proof.
  intros pw mi mr k pw' mi' mr' k' L1 L2 L3 E. unfold kc_info in E.
  apply app_split_r in E; [|rewrite !app_length; lia]. destruct E as [-> E].
  apply app_split in E; [|reflexivity]. destruct E as [_ E]. apply app_split in E; [|exact L1]. destruct E as [-> E].
  apply app_split in E; [|exact L2]. destruct E as [-> ->]. auto.
Qed.
Definition same_run (pw mi mr k pw' mi' mr' k' : bytes) : Prop := pw' = pw /\ mi' = mi /\ mr' = mr /\ k' = k.
Definition kc_collide (P : prims) (n : nat) (pw mi mr k pw' mi' mr' k' : bytes) : Prop :=
  collide_at P n k (kc_info pw mi mr k) k' (kc_info pw' mi' mr' k').
Lemma kc_seg_binds : forall P n pw mi mr k pw' mi' mr' k', List.length mi' = List.length mi -> List.length mr' = List.length mr -> List.length k' = List.length k ->
  firstn 32 (skipn n (expand P k' (kc_info pw' mi' mr' k') 96)) = firstn 32 (skipn n (expand P k (kc_info pw mi mr k) 96)) ->
  same_run pw mi mr k pw' mi' mr' k' \/ kc_collide P n pw mi mr k pw' mi' mr' k'.
Proof.
  intros P n pw mi mr k pw' mi' mr' k' L1 L2 L3 E. destruct (seg_same_or_collide _ _ _ _ _ _ E) as [[_ EI]|C]; [left|right; exact C].
  exact (kc_info_inj _ _ _ _ _ _ _ _ L1 L2 L3 EI).
Qed.

Lemma ok_in_oks : forall M (l : log M) m o, In (m, Ok o) l -> In (m, o) (PropsMatch.oks l).
Proof.
  intros M l m o. induction l as [|[m1 [o1|e1]] l IH]; cbn [PropsMatch.oks]; [intros []| |].
  - intros [E|H]; [injection E as -> ->; left; reflexivity|right; exact (IH H)].
  - intros [E|H]; [discriminate E|exact (IH H)].
Qed.
Section Pair.
Variables (P : prims) (S : spake_crate) (n : nat).
Hypothesis SZ : spake_sizes S n.
Variables (r r' : rng) (ssid pw ssid' pw' : bytes) (s0 s0' s s' : kcspake S) (q q' : rng).
Local Notation K := (KcSpakePake P S).
Variables (l l' : log (pake_machine K)).
Hypothesis NI : pk_new K r ssid pw Initiator = Ret (s0, q).
Hypothesis NR : pk_new K r' ssid' pw' Responder = Ret (s0', q').
Hypothesis HI : hist (pake_machine K) s0 l s.
Hypothesis HR : hist (pake_machine K) s0' l' s'.
(** Two completed sessions with one key: one password, and the two sides of one run. *)
Theorem kc_spake2_equal_keys : forall key, pk_done K s = true -> pk_done K s' = true -> pk_fin K s = Ret key -> pk_fin K s' = Ret key ->
  exists mi mr k mi' mr' k',
    PropsMatch.oks l = side Initiator [mi; mr ++ tag_r P pw mi mr k; tag_i P pw mi mr k] /\
    PropsMatch.oks l' = side Responder [mi'; mr' ++ tag_r P pw' mi' mr' k'; tag_i P pw' mi' mr' k'] /\
    key = kc_key_of P pw mi mr k /\ key = kc_key_of P pw' mi' mr' k' /\
    (same_run pw mi mr k pw' mi' mr' k' \/ kc_collide P 64 pw mi mr k pw' mi' mr' k').
Proof.
  intros key D D' F F'. destruct SZ as [[ZM ZF] ZK]. pose proof (ZM pw ssid r) as LO. pose proof (ZM pw' ssid' r') as LO'. pose proof (ZK pw ssid r) as ZI. pose proof (ZK pw' ssid' r') as ZR. clear ZK.
  destruct (sp_start S pw ssid r) as [[st own] r2] eqn:ST. destruct (sp_start S pw' ssid' r') as [[st' own'] r2'] eqn:ST'. cbn [fst snd] in LO, LO', ZI, ZR.
  pose proof (kcx_hist_I _ _ _ _ _ _ _ _ ST _ _ _ _ NI HI) as [_ [_ X]]. pose proof (kcx_hist_R _ _ _ _ _ _ _ _ ST' _ _ _ _ NR HR) as [_ [_ Y]].
  cbn [KcSpakePake pk_done pk_fin] in D, D', F, F'.
  destruct X as [[_ [D0 _]]|[[_ [D0 _]]|[_ [_ [mr [k [FN [KY OK]]]]]]]]; [congruence|congruence|].
  destruct Y as [[_ [D0 _]]|[mi' [k' [rest [FN' [KY' [_ [OK' [[_ [D0 _]]|[_ [_ RE]]]]]]]]]]]; [congruence|congruence|]. subst rest.
  rewrite KY in F. rewrite KY' in F'. cbn [unwrap] in F, F'. injection F as F. injection F' as F'. rewrite kc_key_eq in F, F'.
  exists own, mr, k, mi', own', k'. split; [exact OK|]. split; [exact OK'|]. split; [congruence|]. split; [congruence|].
  apply kc_seg_binds; [rewrite (ZF _ _ _ FN'); congruence|rewrite (ZF _ _ _ FN); congruence|rewrite (ZI _ _ FN), (ZR _ _ FN'); reflexivity|].
  change (kc_key_of P pw' mi' own' k' = kc_key_of P pw own mr k). congruence.
Qed.
(** A completed initiator accepted some tag t at the end of the second message.  A responder,
    whatever happened to it, that sent the tag t used the same password, received this
    initiator's message, sent the SPAKE2 message this initiator accepted, and holds its key. *)
Theorem kc_spake2_initiator_matched : pk_done K s = true ->
  exists mi mr k t, PropsMatch.oks l = side Initiator [mi; mr ++ t; tag_i P pw mi mr k] /\ List.length t = 32%nat /\ pk_fin K s = Ret (kc_key_of P pw mi mr k) /\
    forall m' b, In (m', Ok (Some (b ++ t))) l' ->
      exists mi' mr' k', m' = mi' /\ b = mr' /\ pk_fin K s' = Ret (kc_key_of P pw' mi' mr' k') /\
        (same_run pw mi mr k pw' mi' mr' k' \/ kc_collide P 32 pw mi mr k pw' mi' mr' k').
Proof.
  intro D. destruct SZ as [[ZM ZF] ZK]. pose proof (ZM pw ssid r) as LO. pose proof (ZM pw' ssid' r') as LO'. pose proof (ZK pw ssid r) as ZI. pose proof (ZK pw' ssid' r') as ZR. clear ZK.
  destruct (sp_start S pw ssid r) as [[st own] r2] eqn:ST. destruct (sp_start S pw' ssid' r') as [[st' own'] r2'] eqn:ST'. cbn [fst snd] in LO, LO', ZI, ZR.
  pose proof (kcx_hist_I _ _ _ _ _ _ _ _ ST _ _ _ _ NI HI) as [_ [_ X]]. pose proof (kcx_hist_R _ _ _ _ _ _ _ _ ST' _ _ _ _ NR HR) as [_ [_ Y]].
  cbn [KcSpakePake pk_done pk_fin] in *.
  destruct X as [[_ [D0 _]]|[[_ [D0 _]]|[_ [_ [mr [k [FN [KY OK]]]]]]]]; [congruence|congruence|].
  exists own, mr, k, (tag_r P pw own mr k). split; [exact OK|]. split; [rewrite <- tag_r_eq; apply kc_mac_r_length|]. rewrite KY, kc_key_eq. split; [reflexivity|].
  intros m' b IN. apply ok_in_oks in IN.
  destruct Y as [[_ [_ [_ OK']]]|[mi' [k' [rest [FN' [KY' [_ [OK' RE]]]]]]]]; rewrite OK' in IN; [contradiction IN|].
  assert (IN' : (m', Some (b ++ tag_r P pw own mr k)) = (mi', Some (own' ++ kc_mac_r P pw' mi' own' k'))).
  { destruct IN as [IN|IN]; [symmetry; exact IN|exfalso]. destruct RE as [[_ [_ RE]]|[_ [_ RE]]]; rewrite RE in IN; [contradiction IN|]. destruct IN as [IN|[]]. discriminate IN. }
  assert (E1 : m' = mi') by congruence. assert (E2 : b ++ tag_r P pw own mr k = own' ++ kc_mac_r P pw' mi' own' k') by congruence. clear IN IN'.
  apply app_split_r in E2; [|rewrite <- tag_r_eq, !kc_mac_r_length; reflexivity]. destruct E2 as [E2 E3].
  exists mi', own', k'. split; [exact E1|]. split; [exact E2|]. rewrite KY', kc_key_eq. split; [reflexivity|].
  apply kc_seg_binds; [rewrite (ZF _ _ _ FN'); congruence|rewrite (ZF _ _ _ FN); congruence|rewrite (ZI _ _ FN), (ZR _ _ FN'); reflexivity|].
  symmetry. exact E3.
Qed.
(** A completed responder accepted a third message t.  An initiator that sent t on any
    message m' is done, used the same password, and holds the same key. *)
Theorem kc_spake2_responder_matched : pk_done K s' = true ->
  exists mi' mr' k' t, PropsMatch.oks l' = side Responder [mi'; mr' ++ tag_r P pw' mi' mr' k'; t] /\ pk_fin K s' = Ret (kc_key_of P pw' mi' mr' k') /\
    forall m', m' <> [] -> In (m', Ok (Some t)) l ->
      exists mi mr k, PropsMatch.oks l = side Initiator [mi; mr ++ tag_r P pw mi mr k; t] /\ pk_done K s = true /\ pk_fin K s = Ret (kc_key_of P pw mi mr k) /\
        (same_run pw mi mr k pw' mi' mr' k' \/ kc_collide P 0 pw mi mr k pw' mi' mr' k').
Proof.
  intro D. destruct SZ as [[ZM ZF] ZK]. pose proof (ZM pw ssid r) as LO. pose proof (ZM pw' ssid' r') as LO'. pose proof (ZK pw ssid r) as ZI. pose proof (ZK pw' ssid' r') as ZR. clear ZK.
  destruct (sp_start S pw ssid r) as [[st own] r2] eqn:ST. destruct (sp_start S pw' ssid' r') as [[st' own'] r2'] eqn:ST'. cbn [fst snd] in LO, LO', ZI, ZR.
  pose proof (kcx_hist_I _ _ _ _ _ _ _ _ ST _ _ _ _ NI HI) as [_ [_ X]]. pose proof (kcx_hist_R _ _ _ _ _ _ _ _ ST' _ _ _ _ NR HR) as [_ [_ Y]].
  cbn [KcSpakePake pk_done pk_fin] in *.
  destruct Y as [[_ [D0 _]]|[mi' [k' [rest [FN' [KY' [_ [OK' [[_ [D0 _]]|[_ [_ RE]]]]]]]]]]]; [congruence|congruence|]. subst rest.
  exists mi', own', k', (tag_i P pw' mi' own' k'). split; [exact OK'|]. rewrite KY', kc_key_eq. split; [reflexivity|].
  intros m' NE IN. apply ok_in_oks in IN.
  destruct X as [[_ [_ [_ OK]]]|[[_ [_ [_ OK]]]|[_ [D0 [mr [k [FN [KY OK]]]]]]]]; rewrite OK in IN.
  - contradiction IN.
  - destruct IN as [IN|[]]. congruence.
  - destruct IN as [IN|[IN|[]]]; [congruence|].
    assert (E1 : kc_mac_i P pw own mr k = tag_i P pw' mi' own' k') by congruence. clear IN.
    exists own, mr, k. split; [rewrite OK, E1; reflexivity|]. split; [exact D0|]. rewrite KY, kc_key_eq. split; [reflexivity|].
    apply kc_seg_binds; [rewrite (ZF _ _ _ FN'); congruence|rewrite (ZF _ _ _ FN); congruence|rewrite (ZI _ _ FN), (ZR _ _ FN'); reflexivity|].
    rewrite tag_i_eq in E1. symmetry. exact E1.
Qed.
End Pair.

(** Concrete case: a crate with 32-byte messages meets the size hypothesis, and so does an
    honest run with it. *)
Lemma toy_spake_sizes : spake_sizes toy_spake 32.
Proof.
  split; [exact toy_spake_sized|]. intros pw id r m k H. unfold toy_spake in H. cbn [sp_start sp_finish] in H.
  destruct (draw 32 r) as [x r1] eqn:E. cbn [fst] in H. destruct (List.length m =? 32)%nat eqn:L; [|discriminate H]. apply Nat.eqb_eq in L.
  assert (LX : List.length x = 32%nat) by (rewrite <- (draw_length 32 r), E; reflexivity).
  injection H as <-. rewrite xor_bytes_length, LX, L. reflexivity.
Qed.
Example kc_pair_meets : exists s0 q s0' q' s s' l l' key, let K := KcSpakePake toy_prims toy_spake in
  pk_new K (fun _ => 1) [7] [9] Initiator = Ret (s0, q) /\ pk_new K (fun _ => 2) [7] [9] Responder = Ret (s0', q') /\
  hist (pake_machine K) s0 l s /\ hist (pake_machine K) s0' l' s' /\ pk_done K s = true /\ pk_done K s' = true /\ pk_fin K s = Ret key /\ pk_fin K s' = Ret key.
Proof.
  set (K := KcSpakePake toy_prims toy_spake).
  destruct (pk_new K (fun _ => 1) [7] [9] Initiator) as [[s0 q]|] eqn:N1; [|discriminate N1].
  destruct (pk_new K (fun _ => 2) [7] [9] Responder) as [[s0' q']|] eqn:N2; [|discriminate N2].
  destruct (kc_spake2_agreement toy_prims toy_spake [7] [9] (fun _ => 1) (fun _ => 2) (fun _ => (fun _ => 5, fun _ => 6)) s0 s0' q q' toy_spake_correct N1 N2)
    as [m1 [m2 [m3 [s [s' [k [HR [D1 [D2 [F1 [F2 _]]]]]]]]]]].
  pose proof (drive_logs (pake_machine K) s0 s0' 5 Initiator (fun _ => (fun _ => 5, fun _ => 6)) s0 s0' [] [] [] (hist_init _ _) (hist_init _ _)) as X.
  cbv zeta in X. unfold honest_run in HR. fold K in HR. rewrite HR in X. cbn [r_status r_outs r_init r_resp app] in X. destruct (X eq_refl) as [H1 H2].
  exists s0, q, s0', q', s, s'. do 2 eexists. exists k. cbv zeta. split; [first [exact N1 | reflexivity]|]. split; [first [exact N2 | reflexivity]|]. split; [exact H1|]. split; [exact H2|]. auto.
Qed.

(* ------------------------------------------------------------------ *)
(** ** CHIP over KC-SPAKE2 *)
(** The point CHIP computes besides the Diffie-Hellman point of the two ephemerals. *)
Definition chip_beta (P : prims) (G : group) (pf : chip_pwfile G) (other : bytes) (x : scalar G) (X R : point G) : point G :=
  g_mul G (g_add G (g_add G R X) (g_mul G (cp_Y pf) (s_from_hash P G ([2] ++ other ++ compress G X)))) (s_add G x (cp_xhat pf)).
(** With these PAKEs the call that creates the PAKE never returns an error. *)
Definition first_call_never_fails (K : pake) : Prop :=
  forall r ssid w rl p0 r' os m p e, pk_new K r ssid w rl = Ret (p0, r') -> pk_run K p0 os m <> Ret (p, Err e).
Lemma kc_first_ok : forall P S, first_call_never_fails (KcSpakePake P S).
Proof.
  intros P S r ssid w rl p0 r' os m p e N E. cbn [KcSpakePake pk_new pk_run] in *. unfold kc_new in N. destruct (sp_start S w ssid r) as [[st own] r2]. injection N as <- _.
  unfold kc_run in E. cbn [kc_step] in E. destruct rl; cbn [first_step] in E.
  - obi E. discriminate E.
  - cbn [kc_state unwrap obind] in E. obi E. match goal with X : kc_derive _ _ _ _ _ = Ret _ |- _ => apply kc_derive_inv in X; destruct X as [LK X]; injection X as -> -> -> end.
    discriminate E.
Qed.
Lemma cake_first_ok : forall P h, first_call_never_fails (CakePake P h).
Proof. intros P h r ssid w rl p0 r' os m p e N E. exact (cake_never_errs _ _ _ _ _ _ _ E). Qed.
Lemma cpace_first_ok : forall C, first_call_never_fails (CpacePake C).
Proof.
  intros C r ssid w rl p0 r' os m p e N E. cbn [CpacePake pk_run] in E. unfold cpace_run in E. destruct (cp_step p0) as [|[|[|n]]]; obi E; discriminate E.
Qed.
Theorem shipped_first_call_never_fails : forall P h C S,
  first_call_never_fails (CakePake P h) /\ first_call_never_fails (CpacePake C) /\ first_call_never_fails (KcSpakePake P S).
Proof. intros. split; [apply cake_first_ok|]. split; [apply cpace_first_ok|apply kc_first_ok]. Qed.

Section ChipAny.
Variables (P : prims) (G : group) (K : pake).
Hypothesis GL : group_laws G.
Hypothesis NF : first_call_never_fails K.
Local Notation M := (chip_machine P G K).
Theorem second_call_ok : forall r0 ssid pf other rl l s, hist M (fst (chip_new G K r0 ssid pf rl other)) l s ->
  forall c1 c2 rest, l = c1 :: c2 :: rest -> exists o, snd c2 = Ok o.
Proof.
  intros r0 ssid pf other rl l s H. remember (fst (chip_new G K r0 ssid pf rl other)) as s0 eqn:S0. induction H as [|l s rr msg s' o H IH E]; [discriminate|].
  assert (FO : forall r w rl p0 r' m p o, pk_new K r ssid w rl = Ret (p0, r') -> pk_run K p0 (snd rr) m = Ret (p, o) -> exists out, o = Ok out).
  { intros q w rl1 p0 q' m p [out|e] N RN; [eauto|]. destruct (NF _ _ _ _ _ _ _ _ _ _ N RN). }
  intros c1 c2 rest EL. destruct l as [|d1 [|d2 l]].
  - discriminate EL.
  - cbn [app] in EL. injection EL as -> <- <-. cbn [snd]. cbn [m_run chip_machine] in E. rewrite S0 in H. destruct rl.
    + apply chip_initiator_phases in H; [|exact GL]. destruct H as [[H _]|[[a [x [errs [H [FE ->]]]]]|[a [x [errs [m2 [X [R [o' [rs [r [p0 [r' [p' [k [H _]]]]]]]]]]]]]]]]; [discriminate H| |destruct errs; discriminate H].
      unfold chip_run in E. cbn [ch_step] in E. destruct (chip_step_2 P G K _ msg) as [[s1 w]|] eqn:E2; cbn [obind] in E; [|discriminate E].
      assert (SS : ch_ssid s1 = ssid) by (unfold chip_step_2 in E2; obi E2; injection E2 as <- _; reflexivity).
      apply chip_start_inv in E. destruct E as [p0 [r' [p' [N [RN _]]]]]. rewrite SS in N. exact (FO _ _ _ _ _ _ _ _ N RN).
    + apply chip_responder_phases in H; [|exact GL]. destruct H as [[H _]|[[a [x [errs [H [FE ->]]]]]|[a [x [errs [m2 [X [R [o' [rs [r [p0 [r' [p' [k [H _]]]]]]]]]]]]]]]]; [discriminate H| |destruct errs; discriminate H].
      unfold chip_run in E. cbn [ch_step] in E. destruct (unwrap _) as [lst|]; cbn [obind] in E; [|discriminate E]. destruct (chip_step_2 P G K _ lst) as [[s1 w]|] eqn:E2; cbn [obind] in E; [|discriminate E].
      assert (SS : ch_ssid s1 = ssid) by (unfold chip_step_2 in E2; obi E2; injection E2 as <- _; reflexivity).
      apply chip_start_inv in E. destruct E as [p0 [r' [p' [N [RN _]]]]]. rewrite SS in N. exact (FO _ _ _ _ _ _ _ _ N RN).
  - cbn [app] in EL. injection EL as -> -> _. exact (IH _ _ _ eq_refl).
Qed.
Lemma no_errs : forall r0 ssid pf other rl l s c (errs : log M) d rest, hist M (fst (chip_new G K r0 ssid pf rl other)) l s -> l = c :: errs ++ d :: rest -> Forall is_err errs -> errs = [].
Proof.
  intros r0 ssid pf other rl l s c errs d rest H EL FE. destruct errs as [|e errs]; [reflexivity|exfalso]. inversion FE as [|? ? [x X] _]. subst.
  destruct (second_call_ok _ _ _ _ _ _ _ H c e (errs ++ d :: rest) eq_refl) as [o Y]. congruence.
Qed.
(** So with them the stale transcript of C41 cannot occur: the input of an initiator's PAKE is
    made of the message the points were computed from. *)
Theorem chip_no_stale_transcript : forall r0 ssid pf other l s p,
  hist M (fst (chip_new G K r0 ssid pf Initiator other)) l s -> ch_pake s = Some p ->
  exists a x m2 X R o rest r p0 r', let m1 := chip_hello G (cp_X pf) (g_base G x) in
    l = (a, Ok (Some m1)) :: (m2, Ok o) :: rest /\ m2 = chip_hello G X R /\
    pk_new K r ssid (chip_input P G pf other x X R (m1 ++ m2)) Initiator = Ret (p0, r') /\
    hist (pake_machine K) p0 (([], Ok o) :: rest) p.
Proof.
  intros r0 ssid pf other l s p H E. destruct (chip_initiator_input P G K GL r0 ssid other pf l s p H E) as [a [x [errs [m2 [X [R [o [rest [r [p0 [r' [EL [FE [EM [N HP]]]]]]]]]]]]]]].
  pose proof (no_errs _ _ _ _ _ _ _ _ _ _ _ H EL FE) as EE. subst errs. cbn [map hd app] in *. exists a, x, m2, X, R, o, rest, r, p0, r'. auto.
Qed.
End ChipAny.

Section Chip.
Variables (P : prims) (G : group) (S : spake_crate) (n : nat).
Hypothesis GL : group_laws G.
Local Notation K := (KcSpakePake P S).
Local Notation M := (chip_machine P G (KcSpakePake P S)).
Lemma oks_inner : forall rest : log (pake_machine K), @PropsMatch.oks M rest = @PropsMatch.oks (pake_machine K) rest.
Proof. intro rest. induction rest as [|[m [o|e]] rest IH]; [reflexivity| |]; cbn [PropsMatch.oks]; [f_equal|]; exact IH. Qed.
(** Three calls of an initiator, and of a responder, that returned Ok. *)
Lemma chip_three_I : forall r0 ssid pf other l s key, hist M (fst (chip_new G K r0 ssid pf Initiator other)) l s ->
  List.length (PropsMatch.oks l) = 3%nat -> chip_fin G K s = Ret key ->
  exists a x X R r p0 r' lp p, let h1 := chip_hello G (cp_X pf) (g_base G x) in let h2 := chip_hello G X R in
    pk_new K r ssid (chip_input P G pf other x X R (h1 ++ h2)) Initiator = Ret (p0, r') /\ hist (pake_machine K) p0 lp p /\
    List.length (PropsMatch.oks lp) = 2%nat /\ pk_fin K p = Ret key /\
    exists o rest, PropsMatch.oks lp = ([], o) :: rest /\ PropsMatch.oks l = (a, Some h1) :: (h2, o) :: rest.
Proof.
  intros r0 ssid pf other l s key H L3 F. pose proof H as H0. apply chip_initiator_phases in H; [|exact GL].
  destruct H as [[-> _]|[[a [x [errs [-> [FE ->]]]]]|[a [x [errs [m2 [X [R [o [rest [r [p0 [r' [p [k [EL [FE [EM [N [HP ES]]]]]]]]]]]]]]]]]]]]; [discriminate L3|discriminate F|].
  pose proof (no_errs P G K GL (kc_first_ok P S) _ _ _ _ _ _ _ _ _ _ _ H0 EL FE) as EE. subst errs. cbn [app map hd] in *. subst l s m2. unfold chip_fin in F. cbn [ch_pake unwrap obind] in F.
  exists a, x, X, R, r, p0, r', (([], Ok o) :: rest), p. cbv zeta. split; [exact N|]. split; [exact HP|]. cbn [PropsMatch.oks] in *. rewrite oks_inner in *. cbn [List.length] in L3.
  split; [cbn [List.length]; lia|]. split; [exact F|]. eexists. eexists. split; reflexivity.
Qed.
Lemma chip_three_R : forall r0 ssid pf other l s key, hist M (fst (chip_new G K r0 ssid pf Responder other)) l s ->
  List.length (PropsMatch.oks l) = 3%nat -> chip_fin G K s = Ret key ->
  exists x X R r p0 r' lp p, let h1 := chip_hello G X R in let h2 := chip_hello G (cp_X pf) (g_base G x) in
    pk_new K r ssid (chip_input P G pf other x X R (h1 ++ h2)) Responder = Ret (p0, r') /\ hist (pake_machine K) p0 lp p /\
    List.length (PropsMatch.oks lp) = 2%nat /\ pk_fin K p = Ret key /\
    PropsMatch.oks l = (h1, Some h2) :: PropsMatch.oks lp.
Proof.
  intros r0 ssid pf other l s key H L3 F. pose proof H as H0. apply chip_responder_phases in H; [|exact GL].
  destruct H as [[-> _]|[[a [x [errs [-> [FE ->]]]]]|[a [x [errs [m2 [X [R [o [rest [r [p0 [r' [p [k [EL [FE [EM [N [HP ES]]]]]]]]]]]]]]]]]]]]; [discriminate L3|discriminate F|].
  pose proof (no_errs P G K GL (kc_first_ok P S) _ _ _ _ _ _ _ _ _ _ _ H0 EL FE) as EE. subst errs. cbn [app map hd] in *. subst l s a. unfold chip_fin in F. cbn [ch_pake unwrap obind] in F.
  exists x, X, R, r, p0, r', ((m2, Ok o) :: rest), p. cbv zeta. split; [exact N|]. split; [exact HP|]. cbn [PropsMatch.oks] in *. rewrite oks_inner in *. cbn [List.length] in L3.
  split; [cbn [List.length]; lia|]. split; [exact F|]. reflexivity.
Qed.
Lemma kc_two_done : forall r ssid w rl p0 r' (l : log (pake_machine K)) p, pk_new K r ssid w rl = Ret (p0, r') -> hist (pake_machine K) p0 l p -> List.length (PropsMatch.oks l) = 2%nat -> pk_done K p = true.
Proof.
  intros r ssid w rl p0 r' l p N H L. destruct (sp_start S w ssid r) as [[st own] r2] eqn:ST. cbn [KcSpakePake pk_done]. destruct rl.
  - destruct (kcx_hist_I _ _ _ _ _ _ _ _ ST _ _ _ _ N H) as [_ [_ [[_ [_ [_ O]]]|[[_ [_ [_ O]]]|[_ [D _]]]]]]; [rewrite O in L; discriminate L|rewrite O in L; discriminate L|exact D].
  - destruct (kcx_hist_R _ _ _ _ _ _ _ _ ST _ _ _ _ N H) as [_ [_ [[_ [_ [_ O]]]|[mi [k [rest [_ [_ [_ [O [[_ [_ RE]]|[_ [D _]]]]]]]]]]]]]; [rewrite O in L; discriminate L|rewrite O, RE in L; discriminate L|exact D].
Qed.

(** A CHIP initiator and a CHIP responder, each with three calls that returned Ok and one key:
    the calls are those of one run, and the long-term and ephemeral points each received are
    the other's. *)
Theorem chip_kc_spake2_equal_keys : spake_sizes S n -> forall r ssid pf other l s r' ssid' pf' other' l' s' key,
  hist M (fst (chip_new G K r ssid pf Initiator other)) l s -> hist M (fst (chip_new G K r' ssid' pf' Responder other')) l' s' ->
  List.length (PropsMatch.oks l) = 3%nat -> List.length (PropsMatch.oks l') = 3%nat -> chip_fin G K s = Ret key -> chip_fin G K s' = Ret key ->
  exists a x X R mi mr k x' X' R' mi' mr' k',
    let h1 := chip_hello G (cp_X pf) (g_base G x) in let h2 := chip_hello G X R in let w := chip_input P G pf other x X R (h1 ++ h2) in
    let h1' := chip_hello G X' R' in let h2' := chip_hello G (cp_X pf') (g_base G x') in let w' := chip_input P G pf' other' x' X' R' (h1' ++ h2') in
    PropsMatch.oks l = [(a, Some h1); (h2, Some mi); (mr ++ tag_r P w mi mr k, Some (tag_i P w mi mr k))] /\
    PropsMatch.oks l' = [(h1', Some h2'); (mi', Some (mr' ++ tag_r P w' mi' mr' k')); (tag_i P w' mi' mr' k', None)] /\
    key = kc_key_of P w mi mr k /\
    ((h1' = h1 /\ h2' = h2 /\ mi' = mi /\ mr' = mr /\ k' = k /\
      X' = cp_X pf /\ R' = g_base G x /\ X = cp_X pf' /\ R = g_base G x' /\
      chip_beta P G pf other x X R = chip_beta P G pf' other' x' X' R') \/
     kc_collide P 64 w mi mr k w' mi' mr' k').
Proof.
  intros SZ r ssid pf other l s r' ssid' pf' other' l' s' key H H' L3 L3' F F'.
  destruct (chip_three_I _ _ _ _ _ _ _ H L3 F) as [a [x [X [R [q [p0 [q1 [lp [p [N [HP [L2 [FP [o [rest [OL OK]]]]]]]]]]]]]]]].
  destruct (chip_three_R _ _ _ _ _ _ _ H' L3' F') as [x' [X' [R' [q' [p0' [q1' [lp' [p' [N' [HP' [L2' [FP' OK']]]]]]]]]]]].
  destruct (kc_spake2_equal_keys P S n SZ _ _ _ _ _ _ _ _ _ _ _ _ _ _ N N' HP HP' key (kc_two_done _ _ _ _ _ _ _ _ N HP L2) (kc_two_done _ _ _ _ _ _ _ _ N' HP' L2') FP FP')
    as [mi [mr [k [mi' [mr' [k' [O1 [O2 [EK [_ EQ]]]]]]]]]].
  exists a, x, X, R, mi, mr, k, x', X', R', mi', mr', k'. cbv zeta in *. rewrite O1 in OL. unfold side in OL. cbn in OL. injection OL as <- <-.
  split; [rewrite OK; reflexivity|]. split; [rewrite OK', O2; reflexivity|]. split; [exact EK|].
  destruct EQ as [[EW [E1 [E2 E3]]]|C]; [left|right; exact C].
  apply chip_input_injective in EW; [|exact GL|apply chip_hello_length|apply chip_hello_length]. destruct EW as [EH1 [EH2 [_ EB]]].
  assert (HI : forall A B C D, chip_hello G A B = chip_hello G C D -> A = C /\ B = D).
  { intros A B C D EH. unfold chip_hello in EH. apply app_split in EH; [|rewrite !compress_length; reflexivity]. destruct EH as [U V].
    split; [apply (f_equal (g_decompress G)) in U|apply (f_equal (g_decompress G)) in V]; rewrite !(gl_decompress G GL) in *; congruence. }
  destruct (HI _ _ _ _ EH1) as [EA EB1]. destruct (HI _ _ _ _ EH2) as [EC ED]. auto 15.
Qed.
End Chip.

(** Concrete case: an honest relay of CHIP sessions meets the hypotheses. *)
Lemma relay_logs : forall M (aI aR : m_st M) f turn tape sI sR msg lI lR,
  hist M aI lI sI -> hist M aR lR sR -> let r := relay M f turn tape sI sR msg in r_status r = Completed ->
  hist M aI (lI ++ as_log (conv turn Initiator msg (r_outs r))) (r_init r) /\ hist M aR (lR ++ as_log (conv turn Responder msg (r_outs r))) (r_resp r).
Proof.
  intros M aI aR f. induction f as [|f IH]; intros turn tape sI sR msg lI lR HI HR; [discriminate|]. cbn [relay].
  destruct (m_run M (sel turn sI sR) (tape O) msg) as [[s' [[o|]|e]]|] eqn:E; [| |discriminate|discriminate].
  - cbn zeta. cbn [r_status r_outs r_init r_resp]. intro C. destruct turn; cbn [sel flip] in *.
    + destruct (IH Responder (shift tape) s' sR o (lI ++ [(msg, Ok (Some o))]) lR (hist_run M aI lI sI (tape O) msg s' (Ok (Some o)) HI E) HR C) as [A B].
      cbn [conv flip app as_log map fst snd opt_bytes]. rewrite <- app_assoc in A. split; [exact A|exact B].
    + destruct (IH Initiator (shift tape) sI s' o lI (lR ++ [(msg, Ok (Some o))]) HI (hist_run M aR lR sR (tape O) msg s' (Ok (Some o)) HR E) C) as [A B].
      cbn [conv flip app as_log map fst snd opt_bytes]. rewrite <- app_assoc in B. split; [exact A|exact B].
  - cbn zeta. cbn [r_status r_outs r_init r_resp]. intros _. destruct turn; cbn [sel flip conv app as_log map fst snd] in *.
    + split; [exact (hist_run M aI lI sI (tape O) msg s' (Ok None) HI E)|rewrite app_nil_r; exact HR].
    + split; [rewrite app_nil_r; exact HI|exact (hist_run M aR lR sR (tape O) msg s' (Ok None) HR E)].
Qed.
Theorem chip_equal_keys_met_by_honest_runs : forall P G S, group_laws G -> spake_correct S ->
  forall pw idI idR rgI rgR ssid rI rR, exists l s l' s' key, let K := KcSpakePake P S in
  hist (chip_machine P G K) (fst (chip_new G K rI ssid (chip_gen_pwfile P G rgI pw idI) Initiator idR)) l s /\
  hist (chip_machine P G K) (fst (chip_new G K rR ssid (chip_gen_pwfile P G rgR pw idR) Responder idI)) l' s' /\
  List.length (PropsMatch.oks l) = 3%nat /\ List.length (PropsMatch.oks l') = 3%nat /\ chip_fin G K s = Ret key /\ chip_fin G K s' = Ret key.
Proof.
  intros P G S GL SC pw idI idR rgI rgR ssid rI rR.
  destruct (chip_kc_spake2 P G S GL SC pw idI idR rgI rgR ssid rI rR (fun _ => (fun _ => 5, fun _ => 6))) as [ms [s [s' [key [RL [LM [F [F' _]]]]]]]].
  pose proof (relay_logs (chip_machine P G (KcSpakePake P S)) _ _ 7 Initiator (fun _ => (fun _ => 5, fun _ => 6)) _ _ [] [] []
    (hist_init (chip_machine P G (KcSpakePake P S)) (fst (chip_new G (KcSpakePake P S) rI ssid (chip_gen_pwfile P G rgI pw idI) Initiator idR)))
    (hist_init (chip_machine P G (KcSpakePake P S)) (fst (chip_new G (KcSpakePake P S) rR ssid (chip_gen_pwfile P G rgR pw idR) Responder idI)))) as X.
  cbv zeta in X. rewrite RL in X. cbn [r_status r_outs r_init r_resp app] in X. destruct (X eq_refl) as [H1 H2].
  exists (as_log (conv Initiator Initiator [] (map Some ms ++ [None]))), s, (as_log (conv Initiator Responder [] (map Some ms ++ [None]))), s', key. cbv zeta.
  split; [exact H1|]. split; [exact H2|]. rewrite !oks_as_log.
  destruct ms as [|m1 [|m2 [|m3 [|m4 [|m5 [|m6 ms]]]]]]; try discriminate LM. cbn. auto.
Qed.
Example chip_equal_keys_meets : group_laws toy_group /\ spake_correct toy_spake /\ spake_sizes toy_spake 32.
Proof. split; [exact toy_group_laws|]. split; [exact toy_spake_correct|exact toy_spake_sizes]. Qed.
