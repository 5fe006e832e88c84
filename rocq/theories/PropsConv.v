(** * PropsConv: LATKE sessions with one key are the two sides of one conversation (C69). *)
From Coq Require Import ZArith List Lia Bool String.
From Verif Require Import Base SaberPoly SaberKem SaberSpec Crypto Symmetric PropsSym Driver Pakes PropsPake Ibkes IbkeSpec
  PropsSigDh PropsHmqv PropsFg PropsSigma SigmaDil IbkeToy Eue PropsEue Latke LatkeSim LatkeHist PropsLatke PropsLatke2
  PropsPanic PropsKeys PropsMatch PropsMatch2 PropsBind.
Import ListNotations.
Open Scope Z_scope.
Local Opaque bytes_of draw expand extract hmac compress str auth_encrypt auth_decrypt.

(* ------------------------------------------------------------------ *)
(** ** Specification *)
(** The calls [who] makes in a run of a protocol whose messages are ms: the initiator starts on
    the empty message, each side is given the other's last message, the last call of the run
    returns None. *)
Definition side (who : role) (ms : list bytes) : list (bytes * option bytes) := conv Initiator who [] (map Some ms ++ [None]).
Example side_two : forall a b, side Initiator [a; b] = [([], Some a); (b, None)] /\ side Responder [a; b] = [(a, Some b)].
Proof. intros. split; reflexivity. Qed.
Example side_three : forall a b c, side Initiator [a; b; c] = [([], Some a); (b, Some c)] /\ side Responder [a; b; c] = [(a, Some b); (c, None)].
Proof. intros. split; reflexivity. Qed.
(** Every completed session, whatever its peer sent, exchanged messages of the sizes ns (and
    the key of an IBKE has 32 bytes). *)
Definition rigid_ibke (I : ibke) (okc : MPK I -> CERT I -> USK I -> Prop) (ns : list nat) : Prop :=
  forall r ssid mpk cert usk rl l s, okc mpk cert usk -> hist (ibke_machine I) (fst (ik_new I r ssid mpk cert usk rl)) l s -> ik_done I s = true ->
    (exists ms, PropsMatch.oks l = side rl ms /\ map (@List.length Z) ms = ns) /\ (forall id k, ik_fin I s = Ret (id, k) -> List.length k = 32%nat).
Definition rigid_pake (K : pake) (ns : list nat) : Prop :=
  forall r ssid pw rl s0 r' l s, pk_new K r ssid pw rl = Ret (s0, r') -> hist (pake_machine K) s0 l s -> pk_done K s = true ->
    exists ms, PropsMatch.oks l = side rl ms /\ map (@List.length Z) ms = ns.

(* ------------------------------------------------------------------ *)
(** ** Transcripts of conversations *)
Definition tr (c : list (bytes * option bytes)) : bytes := List.concat (map (fun c => fst c ++ opt_bytes (snd c)) c).
Lemma tr_app : forall a b, tr (a ++ b) = tr a ++ tr b.
Proof. intros. unfold tr. rewrite map_app, List.concat_app. reflexivity. Qed.
Lemma tr_conv : forall ms t who m, tr (conv t who m (map Some ms ++ [None])) = (if role_eqb t who then m else []) ++ List.concat ms.
Proof.
  induction ms as [|a ms IH]; intros t who m.
  - destruct t, who; unfold tr; cbn; rewrite ?app_nil_r; reflexivity.
  - cbn [map app conv]. rewrite tr_app, IH. cbn [List.concat opt_bytes].
    destruct t, who; unfold tr; cbn; rewrite ?app_nil_r, <- ?app_assoc; reflexivity.
Qed.
Lemma concat_same_sizes : forall (a b : list bytes) x y, map (@List.length Z) a = map (@List.length Z) b ->
  List.concat a ++ x = List.concat b ++ y -> a = b /\ x = y.
Proof.
  induction a as [|m a IH]; intros [|n b] x y L E; cbn [map List.concat app] in *; try discriminate; [auto|].
  injection L as L1 L2. rewrite <- !app_assoc in E. apply app_split in E; [|exact L1]. destruct E as [-> E].
  destruct (IH _ _ _ L2 E) as [-> ->]. auto.
Qed.
Lemma merges_tr : forall rl x xp xe, merges rl x xp xe -> tr x = tr xp ++ tr xe.
Proof.
  intros rl x xp xe [[-> _]|[_ [m [o [xp' [xe' [-> [-> ->]]]]]]]]; [apply tr_app|].
  rewrite !tr_app. unfold tr. cbn [map List.concat fst snd opt_bytes app]. rewrite !app_nil_r, <- !app_assoc. reflexivity.
Qed.
Lemma log_tr : forall M x, log_transcript (LatkeHist.oks x : log M) = tr x.
Proof.
  intros M x. unfold tr. induction x as [|[m o] x IH]; [reflexivity|].
  cbn [LatkeHist.oks map log_transcript fst snd List.concat]. rewrite <- app_assoc. do 2 f_equal. exact IH.
Qed.
Lemma oks_oks : forall M x, PropsMatch.oks (LatkeHist.oks x : log M) = x.
Proof. intros M x. induction x as [|[m o] x IH]; [reflexivity|]. cbn. f_equal. exact IH. Qed.
Lemma no_errors : forall M (x : calls) m e, ~ In (m, Err e) (LatkeHist.oks x : log M).
Proof. intros M x m e H. apply in_map_iff in H. destruct H as [[a b] [E _]]. discriminate E. Qed.

(* ------------------------------------------------------------------ *)
(** ** The encrypted conversation *)
(** cs seals ms from position n on. *)
Fixpoint flights (P : prims) (k ssid : bytes) (n : nat) (ms cs : list bytes) : Prop :=
  match ms, cs with
  | [], [] => True
  | m :: ms', c :: cs' => c <> [] /\ auth_decrypt P (key_at P k ssid n) c = Ret (Ok m) /\ flights P k ssid (S n) ms' cs'
  | _, _ => False
  end.
Fixpoint opens_from (P : prims) (k ssid : bytes) (rl : role) (i : nat) (outer inner : calls) : Prop :=
  match outer, inner with
  | [], [] => True
  | a :: x, b :: y => call_opens P k ssid rl i a b /\ opens_from P k ssid rl (S i) x y
  | _, _ => False
  end.
Lemma opens_from_of : forall P k ssid rl outer inner i, List.length inner = List.length outer ->
  (forall j a b, nth_error outer j = Some a -> nth_error inner j = Some b -> call_opens P k ssid rl (i + j) a b) ->
  opens_from P k ssid rl i outer inner.
Proof.
  intros P k ssid rl outer. induction outer as [|a outer IH]; intros [|b inner] i L H; cbn [List.length] in L; try discriminate; [exact Logic.I|].
  cbn [opens_from]. split; [rewrite <- (Nat.add_0_r i); apply (H O); reflexivity|].
  apply IH; [congruence|]. intros j a' b' A B. replace (S i + j)%nat with (i + S j)%nat by lia. apply (H (S j)); assumption.
Qed.
Lemma opens_opens_from : forall P k ssid rl x y, opens P k ssid rl x y -> opens_from P k ssid rl 0 x y.
Proof. intros P k ssid rl x y [L H]. apply opens_from_of; [exact L|]. intros j a b A B. exact (H _ _ _ A B). Qed.
Lemma flight_nonempty : forall P k ssid n m c, flight P k ssid n m c -> m <> [] -> c <> [] /\ auth_decrypt P (key_at P k ssid n) c = Ret (Ok m).
Proof. intros P k ssid n m c [[-> _]|H] N; [congruence|exact H]. Qed.
Lemma open_conv : forall P k ssid who ms t m outer i n, Forall (fun x => x <> []) ms ->
  opens_from P k ssid who i outer (conv t who m (map Some ms ++ [None])) ->
  (if role_eqb t who then n = send_pos who i else S n = send_pos who i) ->
  exists m' cs, outer = conv t who m' (map Some cs ++ [None]) /\ flights P k ssid n ms cs /\
    (if role_eqb t who then flight P k ssid (recv_pos who i) m m' else m' = m).
Proof.
  intros P k ssid who ms. induction ms as [|a ms IH]; intros t m outer i n NE O PS.
  - destruct (role_eqb t who) eqn:RE.
    + destruct t, who; try discriminate RE; cbn in O; (destruct outer as [|[c o] [|? outer]]; [contradiction O| |destruct O as [_ O]; contradiction O]);
      destruct O as [[O1 O2] _]; cbn [fst snd wire] in O1, O2; subst o; exists c, []; (split; [reflexivity|]); (split; [exact Logic.I|exact O1]).
    + destruct t, who; try discriminate RE; cbn in O; (destruct outer as [|? ?]; [|contradiction O]); exists m, []; (split; [reflexivity|]); (split; [exact Logic.I|reflexivity]).
  - apply Forall_cons_iff in NE. destruct NE as [NA NE]. destruct (role_eqb t who) eqn:RE.
    + assert (X : exists c o outer', outer = (c, o) :: outer' /\ call_opens P k ssid who i (c, o) (m, Some a) /\
        opens_from P k ssid who (S i) outer' (conv (flip t) who a (map Some ms ++ [None]))).
      { destruct t, who; try discriminate RE; cbn in O; (destruct outer as [|[c o] outer]; [contradiction O|]); destruct O as [O1 O2]; exists c, o, outer; auto. }
      destruct X as [c [o [outer' [-> [[O1 O2] O3]]]]]. cbn [fst snd] in O1, O2. destruct a as [|z a]; [congruence|]. cbn [wire] in O2. destruct O2 as [r ->].
      set (w := fst (auth_encrypt P r (key_at P k ssid (send_pos who i)) (z :: a))) in *.
      destruct (IH (flip t) (z :: a) outer' (S i) (S n) NE O3) as [m' [cs [-> [FL _]]]].
      { destruct t, who; try discriminate RE; cbn [flip role_eqb send_pos] in *; lia. }
      exists c, (w :: cs). split; [|split; [|exact O1]].
      * cbn [map app conv]. destruct t, who; try discriminate RE; cbn [flip app opt_bytes]; f_equal; destruct cs; reflexivity.
      * cbn [flights]. split; [|split; [|exact FL]].
        -- intro E. apply (f_equal (@List.length Z)) in E. unfold w in E. rewrite auth_encrypt_length in E. cbn in E. lia.
        -- rewrite PS. apply auth_roundtrip.
    + assert (O' : opens_from P k ssid who i outer (conv (flip t) who a (map Some ms ++ [None]))) by (destruct t, who; try discriminate RE; exact O).
      destruct (IH (flip t) a outer i (S n) NE O') as [m' [cs [-> [FL FF]]]].
      { destruct t, who; try discriminate RE; cbn [flip role_eqb] in *; exact PS. }
      assert (FF' : flight P k ssid (recv_pos who i) a m') by (destruct t, who; try discriminate RE; exact FF).
      apply flight_nonempty in FF'; [|exact NA]. destruct FF' as [N1 N2].
      exists m, (m' :: cs). split; [|split; [|reflexivity]].
      * cbn [map app conv]. destruct t, who; try discriminate RE; reflexivity.
      * cbn [flights]. split; [exact N1|]. split; [|exact FL].
        replace n with (recv_pos who i); [exact N2|]. destruct t, who; try discriminate RE; cbn [send_pos recv_pos] in *; lia.
Qed.
Lemma auth_decrypt_length : forall P k c m, auth_decrypt P k c = Ret (Ok m) -> List.length c = (List.length m + 44)%nat.
Proof.
  intros P k c m H. apply auth_decrypt_ok_inv in H. destruct H as [body [nonce [-> [L ->]]]].
  rewrite !app_length, L, hmac_length, stream_xor_length. lia.
Qed.
Lemma flights_sizes : forall P k ssid ms n cs, flights P k ssid n ms cs -> map (@List.length Z) cs = map (fun m => (List.length m + 44)%nat) ms.
Proof.
  intros P k ssid ms. induction ms as [|m ms IH]; intros n [|c cs] H; cbn [flights] in H; try contradiction; [reflexivity|].
  destruct H as [_ [D F]]. cbn [map]. rewrite (auth_decrypt_length _ _ _ _ D), (IH _ _ F). reflexivity.
Qed.
(** One ciphertext that opens to different messages under the two keys of one position. *)
Definition opens_twice (P : prims) (k ssid k' ssid' : bytes) (cs : list bytes) : Prop :=
  exists j c m m', nth_error cs j = Some c /\ m <> m' /\
    auth_decrypt P (key_at P k ssid j) c = Ret (Ok m) /\ auth_decrypt P (key_at P k' ssid' j) c = Ret (Ok m').
Lemma flights_same : forall P k ssid k' ssid' ms ms' cs n pre, List.length pre = n -> flights P k ssid n ms cs -> flights P k' ssid' n ms' cs ->
  ms' = ms \/ opens_twice P k ssid k' ssid' (pre ++ cs).
Proof.
  intros P k ssid k' ssid' ms. induction ms as [|m ms IH]; intros [|m' ms'] [|c cs] n pre LP F F'; cbn [flights] in F, F'; try contradiction; [auto|].
  destruct F as [_ [D F]], F' as [_ [D' F']].
  destruct (list_eq_dec Z.eq_dec m m') as [<-|NE].
  - destruct (IH ms' cs (S n) (pre ++ [c])) as [->|X]; [rewrite app_length; cbn; lia|exact F|exact F'|left; reflexivity|right].
    rewrite <- app_assoc in X. exact X.
  - right. exists n, c, m, m'. split; [rewrite nth_error_app2 by lia; rewrite LP, Nat.sub_diag; reflexivity|]. auto.
Qed.

(* ------------------------------------------------------------------ *)
(** ** Whole sessions *)
(** The calls of one side of a LATKE run: PAKE messages pm, then the sealed IBKE messages cs.
    If the PAKE has an odd number of messages the responder's last PAKE call returns None and
    the initiator is called again on []. *)
Definition whole (who : role) (pm cs : list bytes) : list (bytes * option bytes) :=
  conv Initiator who [] (map Some pm ++ (if Nat.even (List.length pm) then [] else [None]) ++ map Some cs ++ [None]).
Fixpoint after (t : role) (n : nat) : role := match n with O => t | S n => after (flip t) n end.
Lemma conv_app : forall a t who m b, conv t who m (a ++ b) = conv t who m a ++ conv (after t (List.length a)) who (last (map opt_bytes a) m) b.
Proof.
  induction a as [|o a IH]; intros t who m b; [reflexivity|].
  cbn [app conv List.length after map]. rewrite IH, app_assoc. do 2 f_equal.
  destruct a as [|o' a]; [reflexivity|]. cbn [map last]. clear. revert o'. induction a as [|x a IH]; intro o'; [reflexivity|]. cbn [map last] in *. apply (IH x).
Qed.
Lemma after_even : forall n t, after t n = if Nat.even n then t else flip t.
Proof.
  assert (X : forall n, (forall t, after t n = if Nat.even n then t else flip t) /\ (forall t, after t (S n) = if Nat.even (S n) then t else flip t)).
  { induction n as [|n [IH1 IH2]]; [split; reflexivity|]. split; [exact IH2|]. intro t. cbn [after Nat.even]. rewrite IH1. destruct (Nat.even n), t; reflexivity. }
  intro n. apply X.
Qed.
Lemma conv_other : forall who ms m m', conv (flip who) who m ms = conv (flip who) who m' ms.
Proof. intros who [|o ms] m m'; [reflexivity|]. destruct who; reflexivity. Qed.
Lemma conv_turn : forall who ms m, exists o rest, conv who who m (map Some ms ++ [None]) = (m, o) :: rest /\ forall m', conv who who m' (map Some ms ++ [None]) = (m', o) :: rest.
Proof. intros who [|a ms] m; destruct who; cbn; do 2 eexists; split; reflexivity. Qed.
Lemma last_snoc : forall (A : Type) (l : list A) x d, last (l ++ [x]) d = x.
Proof. intros. apply last_last. Qed.
Lemma side_split : forall who pm, side who pm = conv Initiator who [] (map Some pm) ++
  (if role_eqb who (if Nat.even (List.length pm) then Initiator else Responder) then [(last pm [], None)] else []).
Proof.
  intros who pm. unfold side. rewrite conv_app, after_even, map_length.
  replace (last (map opt_bytes (map Some pm)) []) with (last pm []) by (rewrite map_map; cbn [opt_bytes]; rewrite map_id; reflexivity).
  f_equal. destruct (Nat.even (List.length pm)), who; reflexivity.
Qed.
Lemma side_silent : forall who pm, ends_silent (side who pm) -> role_eqb who (if Nat.even (List.length pm) then Initiator else Responder) = true.
Proof.
  intros who pm [xp [m E]]. rewrite side_split in E.
  destruct (role_eqb who (if Nat.even (List.length pm) then Initiator else Responder)) eqn:R; [reflexivity|exfalso]. rewrite app_nil_r in E.
  assert (X : forall (ms : list bytes) t n c d, In (c, d) (conv t who n (map Some ms)) -> d <> None).
  { clear. induction ms as [|a ms IH]; intros t n c d H; [contradiction H|]. cbn [map conv] in H. apply in_app_or in H.
    destruct H as [H|H]; [|exact (IH _ _ _ _ H)]. destruct t, who; try contradiction H; destruct H as [H|H]; try contradiction H; injection H as _ <-; discriminate. }
  apply (X pm Initiator [] m None); [rewrite E; apply in_or_app; right; left; reflexivity|reflexivity].
Qed.
Lemma app_last_inj : forall (A : Type) (a b : list A) x y, a ++ [x] = b ++ [y] -> a = b /\ x = y.
Proof. intros. apply app_inj_tail. assumption. Qed.
(** A merged session with those parts makes exactly the calls of [whole]. *)
Lemma merges_whole : forall rl x pm cs m', merges rl x (side rl pm) (conv Initiator rl m' (map Some cs ++ [None])) ->
  (rl = Initiator -> Nat.even (List.length pm) = false -> m' = []) -> x = whole rl pm cs.
Proof.
  intros rl x pm cs m' MG M0. unfold whole. rewrite conv_app, after_even, map_length.
  replace (last (map opt_bytes (map Some pm)) []) with (last pm []) by (rewrite map_map; cbn [opt_bytes]; rewrite map_id; reflexivity).
  destruct (Nat.even (List.length pm)) eqn:EV; cbn [app].
  - destruct rl.
    + destruct MG as [[_ NS]|[_ [m [o [xp' [xe' [E1 [E2 ->]]]]]]]].
      { exfalso. apply NS; [reflexivity|]. rewrite side_split, EV. cbn [role_eqb]. do 2 eexists. reflexivity. }
      rewrite side_split, EV in E1. cbn [role_eqb] in E1. apply app_last_inj in E1. destruct E1 as [<- E1]. injection E1 as <-.
      destruct (conv_turn Initiator cs m') as [o' [rest [C1 C2]]]. rewrite C1 in E2. injection E2 as _ <- <-. rewrite C2. reflexivity.
    + destruct MG as [[-> _]|[E _]]; [|discriminate E]. rewrite side_split, EV. cbn [role_eqb]. rewrite app_nil_r. f_equal. apply (conv_other Responder).
  - destruct rl.
    + rewrite M0 in MG by reflexivity. destruct MG as [[-> _]|[_ [m [o [xp' [xe' [E1 [_ _]]]]]]]].
      2:{ exfalso. assert (X : ends_silent (side Initiator pm)) by (do 2 eexists; exact E1). apply side_silent in X. rewrite EV in X. discriminate X. }
      rewrite side_split, EV. cbn [role_eqb]. rewrite app_nil_r. f_equal.
    + destruct MG as [[-> _]|[E _]]; [|discriminate E]. rewrite side_split, EV. cbn [role_eqb]. rewrite <- app_assoc. f_equal. cbn [app flip conv opt_bytes]. f_equal. apply (conv_other Responder).
Qed.

Section Conv.
Variables (P : prims) (I : ibke) (K : pake) (okc : MPK I -> CERT I -> USK I -> Prop) (ns ps : list nat).
Hypothesis RI : rigid_ibke I okc ns.
Hypothesis PN : Forall (fun n => 0 < n)%nat ns.
Hypothesis RK : rigid_pake K ps.
Hypothesis SD : silent_when_done K.
(** One completed session. *)
Lemma latke_done_shape : forall r ssid pf rl peer s0 r1 l s,
  latke_new I K r ssid pf rl peer = Ret (s0, r1) -> hist (latke_machine P I K) s0 l s -> latke_done I K s = true -> okc (pf_mpk pf) (pf_cert pf) (pf_usk pf) ->
  exists k ri e pm ms cs m',
    pk_fin K (l_pake s) = Ret k /\ l_ibke s = Some e /\
    hist (ibke_machine I) (fst (ik_new I ri ssid (pf_mpk pf) (pf_cert pf) (pf_usk pf) rl)) (LatkeHist.oks (side rl ms)) (e_sess e) /\
    ik_done I (e_sess e) = true /\ map (@List.length Z) pm = ps /\ map (@List.length Z) ms = ns /\
    merges rl (PropsMatch.oks l) (side rl pm) (conv Initiator rl m' (map Some cs ++ [None])) /\
    flights P k ssid 0 ms cs /\ l_trans s = log_transcript l /\
    log_transcript l = List.concat pm ++ (if role_eqb Initiator rl then m' else []) ++ List.concat cs /\
    (forall id ik, ik_fin I (e_sess e) = Ret (id, ik) -> List.length ik = 32%nat).
Proof.
  intros r ssid pf rl peer s0 r1 l s N H D OC.
  destruct (latke_log_oks P I K l) as [x ->].
  destruct (latke_parts_hist P I K r ssid pf rl peer SD s0 r1 x s N H) as [p0 [PNW [[_ [_ [_ [xp [HP C]]]]] T]]].
  unfold latke_done in D. destruct C as [[LN _]|[k [ri [e0 [r2 [e [xe [PD [FK [LN [MG [EN HE]]]]]]]]]]]].
  { rewrite LN in D. discriminate D. }
  rewrite LN in D. unfold eue_done in D.
  destruct (eue_hist_at _ _ _ _ _ _ _ _ _ _ _ _ _ EN HE) as [xi [HI [OP _]]].
  destruct (RK _ _ _ _ _ _ _ _ PNW HP PD) as [pm [EP LP]]. rewrite oks_oks in EP. subst xp.
  destruct (RI _ _ _ _ _ _ _ _ OC HI D) as [[ms [EM LM]] K32]. rewrite oks_oks in EM. subst xi.
  assert (NE : Forall (fun x => x <> []) ms).
  { rewrite <- LM in PN. clear - PN. induction ms as [|m ms IH]; [constructor|]. cbn [map] in PN. apply Forall_cons_iff in PN. destruct PN as [A B].
    constructor; [|exact (IH B)]. intros ->. cbn in A. lia. }
  apply opens_opens_from in OP. unfold side in OP.
  destruct (open_conv P k ssid rl ms Initiator [] xe 0 0 NE OP) as [m' [cs [-> [FL FF]]]]; [destruct rl; reflexivity|].
  exists k, ri, e, pm, ms, cs, m'. rewrite oks_oks.
  split; [exact FK|]. split; [exact LN|]. split; [exact HI|]. split; [exact D|]. split; [exact LP|]. split; [exact LM|]. split; [exact MG|]. split; [exact FL|]. split; [exact T|].
  split; [|exact K32]. rewrite log_tr, (merges_tr _ _ _ _ MG). unfold side. rewrite !tr_conv. destruct rl; reflexivity.
Qed.
Definition inner_out (s : latke I K) (id ik : bytes) : Prop := exists e, l_ibke s = Some e /\ ik_fin I (e_sess e) = Ret (id, ik).
Lemma latke_fin_inner : forall s id key, latke_fin P I K s = Ret (id, key) ->
  exists ik, inner_out s id ik /\ key = expand P (extract P (Some (str "latke-tr-hash")) (l_trans s ++ ik)) (str "latke-final") 32.
Proof.
  intros s id key F. unfold latke_fin in F. destruct (l_ibke s) as [e|] eqn:E; cbn [unwrap obind] in F; [|discriminate F].
  unfold eue_fin in F. destruct (ik_fin I (e_sess e)) as [[id' ik]|] eqn:IFN; cbn [obind] in F; [|discriminate F].
  injection F as <- <-. exists ik. split; [exists e; auto|reflexivity].
Qed.
Lemma size_after_sum : forall (pm cs pm' cs' : list bytes) (m : bytes), map (@List.length Z) pm = map (@List.length Z) pm' -> map (@List.length Z) cs = map (@List.length Z) cs' ->
  List.concat pm ++ m ++ List.concat cs = List.concat pm' ++ List.concat cs' -> m = [] /\ pm' = pm /\ cs' = cs.
Proof.
  assert (X : forall a b : list bytes, map (@List.length Z) a = map (@List.length Z) b -> List.length (List.concat a) = List.length (List.concat b)).
  { induction a as [|x a IH]; intros [|y b] E; try discriminate; [reflexivity|]. injection E as E1 E2. cbn [List.concat]. rewrite !app_length, E1, (IH _ E2). reflexivity. }
  intros pm cs pm' cs' m L1 L2 E.
  assert (M : m = []).
  { apply (f_equal (@List.length Z)) in E. rewrite !app_length, (X _ _ L1), (X _ _ L2) in E. destruct m; [reflexivity|cbn in E; lia]. }
  subst m. cbn [app] in E. apply concat_same_sizes in E; [|exact L1]. destruct E as [-> E].
  rewrite <- (app_nil_r (List.concat cs)), <- (app_nil_r (List.concat cs')) in E. apply concat_same_sizes in E; [|exact L2]. destruct E as [-> _]. auto.
Qed.
(** Two completed sessions of opposite roles that output one key: unless the two runs exhibit a
    collision of the final key derivation, the initiator and the responder made the calls of
    one run, their inner keys are equal, and their IBKE sessions exchanged ms and ms', sealed
    in the same ciphertexts. *)
Theorem latke_equal_keys_conversation :
  forall r ssid pf peer s0 r1 l s id r' ssid' pf' peer' s0' r1' l' s' id' key,
  latke_new I K r ssid pf Initiator peer = Ret (s0, r1) -> hist (latke_machine P I K) s0 l s -> latke_done I K s = true -> okc (pf_mpk pf) (pf_cert pf) (pf_usk pf) ->
  latke_new I K r' ssid' pf' Responder peer' = Ret (s0', r1') -> hist (latke_machine P I K) s0' l' s' -> latke_done I K s' = true -> okc (pf_mpk pf') (pf_cert pf') (pf_usk pf') ->
  latke_fin P I K s = Ret (id, key) -> latke_fin P I K s' = Ret (id', key) ->
  exists ik ik' k k', inner_out s id ik /\ inner_out s' id' ik' /\ pk_fin K (l_pake s) = Ret k /\ pk_fin K (l_pake s') = Ret k' /\
    let t := Some (str "latke-tr-hash") in let f := str "latke-final" in
    let T := log_transcript l ++ ik in let T' := log_transcript l' ++ ik' in
    extract_collide P t T T' \/ collide P (extract P t T) f (extract P t T') f \/
    (ik' = ik /\ exists pm cs ms ms' ri ri' si si',
       PropsMatch.oks l = whole Initiator pm cs /\ PropsMatch.oks l' = whole Responder pm cs /\
       flights P k ssid 0 ms cs /\ flights P k' ssid' 0 ms' cs /\
       hist (ibke_machine I) (fst (ik_new I ri ssid (pf_mpk pf) (pf_cert pf) (pf_usk pf) Initiator)) (as_log (side Initiator ms)) si /\
       hist (ibke_machine I) (fst (ik_new I ri' ssid' (pf_mpk pf') (pf_cert pf') (pf_usk pf') Responder)) (as_log (side Responder ms')) si' /\
       ik_done I si = true /\ ik_done I si' = true /\ ik_fin I si = Ret (id, ik) /\ ik_fin I si' = Ret (id', ik)).
Proof.
  intros r ssid pf peer s0 r1 l s id r' ssid' pf' peer' s0' r1' l' s' id' key N H D OC N' H' D' OC' F F'.
  destruct (latke_done_shape _ _ _ _ _ _ _ _ _ N H D OC) as [k [ri [e [pm [ms [cs [m' [FK [LE [HI [DI [LP [LM [MG [FL [T [TX K32]]]]]]]]]]]]]]]]].
  destruct (latke_done_shape _ _ _ _ _ _ _ _ _ N' H' D' OC') as [k' [ri' [e' [pm' [ms' [cs' [n' [FK' [LE' [HI' [DI' [LP' [LM' [MG' [FL' [T' [TX' K32']]]]]]]]]]]]]]]]].
  destruct (latke_fin_inner _ _ _ F) as [ik [IO KEY]]. destruct (latke_fin_inner _ _ _ F') as [ik' [IO' KEY']].
  assert (FE : ik_fin I (e_sess e) = Ret (id, ik)) by (destruct IO as [e1 [L1 L2]]; congruence).
  assert (FE' : ik_fin I (e_sess e') = Ret (id', ik')) by (destruct IO' as [e1 [L1 L2]]; congruence).
  exists ik, ik', k, k'. split; [exact IO|]. split; [exact IO'|]. split; [exact FK|]. split; [exact FK'|]. cbv zeta.
  rewrite T in KEY. rewrite T' in KEY'. rewrite KEY' in KEY.
  destruct (expand_same_or_collide _ _ _ _ _ (eq_sym KEY)) as [[EA _]|C]; [|right; left; exact C].
  destruct (extract_same_or_collide _ _ _ _ EA) as [EB|C]; [|left; exact C]. right. right.
  apply app_split_r in EB; [|rewrite (K32 _ _ FE), (K32' _ _ FE'); reflexivity]. destruct EB as [ET EK]. subst ik'. split; [reflexivity|].
  cbn [role_eqb] in TX, TX'. rewrite TX, TX' in ET. cbn [app] in ET.
  destruct (size_after_sum pm cs pm' cs' m') as [-> [-> ->]]; [congruence| |exact ET|].
  { rewrite (flights_sizes _ _ _ _ _ _ FL), (flights_sizes _ _ _ _ _ _ FL').
    rewrite <- (map_map (@List.length Z) (fun n => n + 44)%nat), <- (map_map (@List.length Z) (fun n => n + 44)%nat ms'), LM, LM'. reflexivity. }
  exists pm, cs, ms, ms', ri, ri', (e_sess e), (e_sess e').
  split; [apply (merges_whole _ _ _ _ _ MG); auto|]. split; [apply (merges_whole _ _ _ _ _ MG'); discriminate|].
  split; [exact FL|]. split; [exact FL'|]. split; [exact HI|]. split; [exact HI'|]. auto.
Qed.
End Conv.

(* ------------------------------------------------------------------ *)
(** ** Identities *)
(** Two completed IBKE sessions of opposite roles that exchanged ms and output one key name
    each other, except if [bad ms]. *)
Definition names_peers (I : ibke) (okc : MPK I -> CERT I -> USK I -> Prop) (bad : list bytes -> Prop) : Prop :=
  forall r ssid mpk cert usk s r' ssid' mpk' cert' usk' s' ms id id' ik, okc mpk cert usk -> okc mpk' cert' usk' ->
    hist (ibke_machine I) (fst (ik_new I r ssid mpk cert usk Initiator)) (as_log (side Initiator ms)) s -> ik_done I s = true ->
    hist (ibke_machine I) (fst (ik_new I r' ssid' mpk' cert' usk' Responder)) (as_log (side Responder ms)) s' -> ik_done I s' = true ->
    ik_fin I s = Ret (id, ik) -> ik_fin I s' = Ret (id', ik) ->
    (id = cert_id I cert' /\ id' = cert_id I cert) \/ bad ms.
(** The sealed message c opens under the first message keys of two different pairs of PAKE key
    and ssid. *)
Definition opens_under_both (P : prims) (k ssid k' ssid' c : bytes) : Prop :=
  (k' <> k \/ ssid' <> ssid) /\ (exists m, auth_decrypt P (key_at P k ssid 0) c = Ret (Ok m)) /\ (exists m, auth_decrypt P (key_at P k' ssid' 0) c = Ret (Ok m)).
(** Two completed LATKE sessions of opposite roles that output one key.  Unless these two runs
    exhibit a collision of the final key derivation, their calls are the two sides of one run
    with PAKE messages pm and sealed messages cs; and unless the first sealed message opens
    under two different PAKE keys or ssids, they have one PAKE key and one ssid, and each
    outputs the identity in the other's certificate. *)
Definition equal_keys_bind (P : prims) (I : ibke) (K : pake) (okc : MPK I -> CERT I -> USK I -> Prop) (bad : list bytes -> Prop) : Prop :=
  forall r ssid pf peer s0 r1 l s id r' ssid' pf' peer' s0' r1' l' s' id' key,
  latke_new I K r ssid pf Initiator peer = Ret (s0, r1) -> hist (latke_machine P I K) s0 l s -> latke_done I K s = true -> okc (pf_mpk pf) (pf_cert pf) (pf_usk pf) ->
  latke_new I K r' ssid' pf' Responder peer' = Ret (s0', r1') -> hist (latke_machine P I K) s0' l' s' -> latke_done I K s' = true -> okc (pf_mpk pf') (pf_cert pf') (pf_usk pf') ->
  latke_fin P I K s = Ret (id, key) -> latke_fin P I K s' = Ret (id', key) ->
  exists ik ik' k k', inner_out I K s id ik /\ inner_out I K s' id' ik' /\ pk_fin K (l_pake s) = Ret k /\ pk_fin K (l_pake s') = Ret k' /\
    let t := Some (str "latke-tr-hash") in let f := str "latke-final" in
    let T := log_transcript l ++ ik in let T' := log_transcript l' ++ ik' in
    extract_collide P t T T' \/ collide P (extract P t T) f (extract P t T') f \/
    exists pm c0 cs, PropsMatch.oks l = whole Initiator pm (c0 :: cs) /\ PropsMatch.oks l' = whole Responder pm (c0 :: cs) /\ ik' = ik /\
      (opens_under_both P k ssid k' ssid' c0 \/
       (k' = k /\ ssid' = ssid /\ exists ms, flights P k ssid 0 ms (c0 :: cs) /\
          ((id = cert_id I (pf_cert pf') /\ id' = cert_id I (pf_cert pf)) \/ bad ms))).
Section Names.
Variables (P : prims) (I : ibke) (K : pake) (okc : MPK I -> CERT I -> USK I -> Prop) (ns ps : list nat) (bad : list bytes -> Prop).
Hypothesis RI : rigid_ibke I okc ns.
Hypothesis PN : Forall (fun n => 0 < n)%nat ns.
Hypothesis NN : ns <> [].
Hypothesis RK : rigid_pake K ps.
Hypothesis SD : silent_when_done K.
Hypothesis NP : names_peers I okc bad.
Theorem latke_equal_keys_matched : equal_keys_bind P I K okc bad.
Proof.
  intros r ssid pf peer s0 r1 l s id r' ssid' pf' peer' s0' r1' l' s' id' key N H D OC N' H' D' OC' F F'.
  destruct (latke_equal_keys_conversation P I K okc ns ps RI PN RK SD _ _ _ _ _ _ _ _ _ _ _ _ _ _ _ _ _ _ _ N H D OC N' H' D' OC' F F')
    as [ik [ik' [k [k' [IO [IO' [FK [FK' [C|[C|[EK [pm [cs [ms [ms' [ri [ri' [si [si' [O1 [O2 [FL [FL' [HI [HI' [DI [DI' [FN FN']]]]]]]]]]]]]]]]]]]]]]]]]]]];
  exists ik, ik', k, k'; (split; [exact IO|]); (split; [exact IO'|]); (split; [exact FK|]); (split; [exact FK'|]); cbv zeta; [left; exact C|right; left; exact C|right; right].
  subst ik'. destruct cs as [|c0 cs].
  { exfalso. destruct ms as [|m ms]; [|exact FL].
    destruct (RI _ _ _ _ _ _ _ _ OC HI DI) as [[ms [EM LM]] _]. rewrite oks_as_log in EM. destruct ms; [apply NN; symmetry; exact LM|].
    unfold side in EM. cbn in EM. discriminate EM. }
  exists pm, c0, cs. split; [exact O1|]. split; [exact O2|]. split; [reflexivity|].
  destruct ms as [|m ms]; [contradiction FL|]. destruct ms' as [|m' ms']; [contradiction FL'|].
  destruct (list_eq_dec Z.eq_dec k' k) as [->|NK].
  2:{ left. split; [left; exact NK|]. split; [exists m; apply FL|exists m'; apply FL']. }
  destruct (list_eq_dec Z.eq_dec ssid' ssid) as [->|NSS].
  2:{ left. split; [right; exact NSS|]. split; [exists m; apply FL|exists m'; apply FL']. }
  right. split; [reflexivity|]. split; [reflexivity|]. exists (m :: ms). split; [exact FL|].
  assert (E : m' :: ms' = m :: ms).
  { destruct (flights_same _ _ _ _ _ _ _ _ O [] eq_refl FL FL') as [E|[j [c [x [y [_ [NE [A B]]]]]]]]; [exact E|exfalso; apply NE; congruence]. }
  rewrite E in HI'. exact (NP _ _ _ _ _ _ _ _ _ _ _ _ _ _ _ _ OC OC' HI DI HI' DI' FN FN').
Qed.
End Names.
