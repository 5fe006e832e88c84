(** * Ibkes: model of latke/src/ibke/{id_sig_dh,id_hmqv_c,fg_ibke,id_sigma_r}.rs

    A step that answers [Err] (through [?] or [return]) keeps the fields assigned before it
    and does not advance the step counter; a panic leaves no state. *)
From Coq Require Import ZArith List Lia Bool String.
From Verif Require Import Base SaberKem Crypto Symmetric Pakes.
Import ListNotations.
Open Scope Z_scope.

(** lib.rs 22-31: ids, nonces and session keys are 32-byte arrays. *)
Definition ID_LEN : nat := 32.
(** [ed25519_dalek::VerifyingKey::from_bytes(b.try_into().unwrap()).unwrap()]: panics on a
    wrong length and on an encoding the crate refuses. *)
Definition ed_pk_from_bytes (P : prims) (b : bytes) : outcome bytes :=
  let! b := copy_exact 32 b in assert_ (p_pk_valid P Ed25519 b) (Ret b).
(** [Signature::from_bytes(b.try_into().unwrap())]: panics on a wrong length only. *)
Definition ed_sig_from_bytes (b : bytes) : outcome bytes := copy_exact 64 b.

(* ------------------------------------------------------------------ *)
(** ** ID-SIG-DH (id_sig_dh.rs) *)

(** id_sig_dh.rs 20-24: [struct SigDhCert]; the user public key is a pair of an Ed25519 and
    an X25519 key. *)
Record sd_cert := SdCert { sdc_id : bytes; sdc_upk : bytes * bytes; sdc_sig : bytes }.
(** id_sig_dh.rs 27-35. *)
Definition sd_cert_to_bytes (c : sd_cert) : bytes :=
  sdc_id c ++ fst (sdc_upk c) ++ snd (sdc_upk c) ++ sdc_sig c.
(** id_sig_dh.rs 37-52. *)
Definition sd_cert_from_bytes (P : prims) (b : bytes) : outcome sd_cert :=
  let! (id, rest) := split_at ID_LEN b in
  let! (sig_upk, rest) := split_at 32 rest in
  let! (dh_upk, rest) := split_at 32 rest in
  let! spk := ed_pk_from_bytes P sig_upk in
  let! sg := ed_sig_from_bytes rest in
  Ret (SdCert id (spk, dh_upk) sg).
(** id_sig_dh.rs 54-56. *)
Definition sd_cert_size : nat := ID_LEN + 32 + 32 + 64.

(** id_sig_dh.rs 72-87: [struct IdSigDh]. *)
Record sigdh := SigDh {
  sd_ssid : bytes;
  sd_cert_ : sd_cert;
  sd_mpk : bytes;
  sd_usk : bytes * bytes;
  sd_eph_sk : option bytes;
  sd_eph_pk : option bytes;
  sd_key : option bytes;
  sd_id : option bytes;
  sd_step : nat;
  sd_done : bool
}.

(** id_sig_dh.rs 97-118: [new_session]. *)
Definition sd_new (r : rng) (ssid mpk : bytes) (cert : sd_cert) (usk : bytes * bytes) (rl : role) : sigdh * rng :=
  (SigDh ssid cert mpk usk None None None None (first_step rl) false, r).
(** id_sig_dh.rs 120-124: [gen_main_keypair]. *)
Definition sd_gen_main (P : prims) (r : rng) : bytes * bytes * rng := sig_keygen P Ed25519 r.
(** id_sig_dh.rs 126-132: [gen_user_keypair]. *)
Definition sd_gen_user (P : prims) (r : rng) : (bytes * bytes) * (bytes * bytes) * rng :=
  let '(sig_pk, sig_sk, r1) := sig_keygen P Ed25519 r in
  let (dh_sk, r2) := draw 32 r1 in
  ((sig_pk, x_pub P dh_sk), (sig_sk, dh_sk), r2).
(** id_sig_dh.rs 134-153: [extract]. *)
Definition sd_extract (P : prims) (r : rng) (msk id : bytes) (upk : bytes * bytes) : sd_cert * rng :=
  (SdCert id upk (sign P Ed25519 msk (id ++ fst upk ++ snd upk)), r).

(** id_sig_dh.rs 198-206 and 271-279: parsing of an ephemeral key, a signature and a
    certificate. *)
Definition sd_parse (P : prims) (m : bytes) : outcome (bytes * bytes * sd_cert) :=
  let! (eph, rest) := split_at 32 m in
  let! (sg, rest) := split_at 64 rest in
  let! sg := ed_sig_from_bytes sg in
  let! cert := sd_cert_from_bytes P rest in
  Ret (eph, sg, cert).
(** id_sig_dh.rs 209-217 and 282-290: verification of a certificate. *)
Definition sd_cert_valid (P : prims) (mpk : bytes) (c : sd_cert) : bool :=
  verify P Ed25519 mpk (sdc_id c ++ fst (sdc_upk c) ++ snd (sdc_upk c)) (sdc_sig c).

(** id_sig_dh.rs 163-336: [run].  The ephemeral secrets come from [rand::thread_rng()], not
    from the caller's rng. *)
Definition sd_run (P : prims) (s : sigdh) (r os : rng) (m : bytes)
  : outcome (sigdh * res (option bytes) unit * rng) :=
  match sd_step s with
  | 0%nat =>
    assert_ (List.length m =? 0)%nat
    (let (eph_sk, _) := draw 32 os in
     let eph_pk := x_pub P eph_sk in
     let sg := sign P Ed25519 (fst (sd_usk s)) ([0] ++ sd_ssid s ++ eph_pk) in
     Ret (SigDh (sd_ssid s) (sd_cert_ s) (sd_mpk s) (sd_usk s) (Some eph_sk) (Some eph_pk)
            (sd_key s) (sd_id s) (sd_step s + 2) (sd_done s),
          Ok (Some (eph_pk ++ sg ++ sd_cert_to_bytes (sd_cert_ s))), r))
  | 1%nat =>
    let! (eph, sg, cert) := sd_parse P m in
    if negb (sd_cert_valid P (sd_mpk s) cert) then Ret (s, Err tt, r) else
    let upk := sdc_upk cert in
    let s1 := SigDh (sd_ssid s) (sd_cert_ s) (sd_mpk s) (sd_usk s) (sd_eph_sk s) (sd_eph_pk s)
                (sd_key s) (Some (sdc_id cert)) (sd_step s) (sd_done s) in
    if negb (verify P Ed25519 (fst upk) ([0] ++ sd_ssid s ++ eph) sg) then Ret (s1, Err tt, r) else
    let (eph_sk, _) := draw 32 os in
    let eph_pk := x_pub P eph_sk in
    let sg' := sign P Ed25519 (fst (sd_usk s)) ([1] ++ sd_ssid s ++ eph_pk) in
    let z1 := x_dh P (snd (sd_usk s)) (snd upk) in
    let z2 := x_dh P (snd (sd_usk s)) eph in
    let z3 := x_dh P eph_sk (snd upk) in
    let z4 := x_dh P eph_sk eph in
    let prk := extract P None (z1 ++ z2 ++ z3 ++ z4) in
    let key := expand P prk (sd_ssid s ++ eph ++ eph_pk) 32 in
    Ret (SigDh (sd_ssid s) (sd_cert_ s) (sd_mpk s) (sd_usk s) (sd_eph_sk s) (sd_eph_pk s)
           (Some key) (Some (sdc_id cert)) (sd_step s + 2) true,
         Ok (Some (eph_pk ++ sg' ++ sd_cert_to_bytes (sd_cert_ s))), r)
  | 2%nat =>
    let! (eph, sg, cert) := sd_parse P m in
    if negb (sd_cert_valid P (sd_mpk s) cert) then Ret (s, Err tt, r) else
    let upk := sdc_upk cert in
    let s1 := SigDh (sd_ssid s) (sd_cert_ s) (sd_mpk s) (sd_usk s) (sd_eph_sk s) (sd_eph_pk s)
                (sd_key s) (Some (sdc_id cert)) (sd_step s) (sd_done s) in
    if negb (verify P Ed25519 (fst upk) ([1] ++ sd_ssid s ++ eph) sg) then Ret (s1, Err tt, r) else
    let! eph_sk := unwrap (sd_eph_sk s) in
    let! eph_pk := unwrap (sd_eph_pk s) in
    let z1 := x_dh P (snd (sd_usk s)) (snd upk) in
    let z2 := x_dh P eph_sk (snd upk) in
    let z3 := x_dh P (snd (sd_usk s)) eph in
    let z4 := x_dh P eph_sk eph in
    let prk := extract P None (z1 ++ z2 ++ z3 ++ z4) in
    let key := expand P prk (sd_ssid s ++ eph_pk ++ eph) 32 in
    Ret (SigDh (sd_ssid s) (sd_cert_ s) (sd_mpk s) (sd_usk s) (sd_eph_sk s) (sd_eph_pk s)
           (Some key) (Some (sdc_id cert)) (sd_step s + 2) true, Ok None, r)
  | _ => Panic
  end.

(** id_sig_dh.rs 338-360: [run_sim]. *)
Definition sd_sim (s : sigdh) : outcome (sigdh * option nat) :=
  let next d := SigDh (sd_ssid s) (sd_cert_ s) (sd_mpk s) (sd_usk s) (sd_eph_sk s) (sd_eph_pk s)
                  (sd_key s) (sd_id s) (sd_step s + 2) d in
  match sd_step s with
  | 0%nat => Ret (next (sd_done s), Some (32 + 64 + sd_cert_size)%nat)
  | 1%nat => Ret (next true, Some (32 + 64 + sd_cert_size)%nat)
  | 2%nat => Ret (next true, None)
  | _ => Panic
  end.

Definition IdSigDh (P : prims) : ibke := {|
  MPK := bytes; MSK := bytes; UPK := bytes * bytes; USK := bytes * bytes;
  CERT := sd_cert; IST := sigdh; IERR := unit;
  mpk_bytes := fun k => k;                  (* 65-69 *)
  cert_id := sdc_id;                        (* 59-63 *)
  gen_main := sd_gen_main P;
  gen_user := sd_gen_user P;
  ik_extract := sd_extract P;
  ik_new := sd_new;
  ik_run := sd_run P;
  ik_sim := sd_sim;
  ik_done := sd_done;                       (* 155-157 *)
  ik_fin := fun s =>                        (* 159-161 *)
    let! id := unwrap (sd_id s) in let! k := unwrap (sd_key s) in Ret (id, k)
|}.

(* ------------------------------------------------------------------ *)
(** ** ID-HMQV-C (id_hmqv_c.rs) *)
Section HMQV.
Variable P : prims.
Variable G : group.

(** id_hmqv_c.rs 23-27: [struct IdHmqvCCert]. *)
Record hm_cert := HmCert { hmc_id : bytes; hmc_upk : point G; hmc_sig : bytes }.
(** id_hmqv_c.rs 30-37. *)
Definition hm_cert_to_bytes (c : hm_cert) : bytes := hmc_id c ++ compress G (hmc_upk c) ++ hmc_sig c.
(** id_hmqv_c.rs 39-53. *)
Definition hm_cert_from_bytes (b : bytes) : outcome hm_cert :=
  let! (id, rest) := split_at ID_LEN b in
  let! (upk, rest) := split_at 32 rest in
  let! p := decompress G upk in
  let! sg := ed_sig_from_bytes rest in
  Ret (HmCert id p sg).
(** id_hmqv_c.rs 55-57. *)
Definition hm_cert_size : nat := ID_LEN + 32 + 64.

(** id_hmqv_c.rs 66-82: [struct IdHmqvC]. *)
Record hmqv := Hmqv {
  hm_ssid : bytes;
  hm_cert_ : hm_cert;
  hm_mpk : bytes;
  hm_usk : scalar G;
  hm_eph_sk : option (scalar G);
  hm_eph_pk : option (point G);
  hm_macs : option (bytes * bytes);
  hm_key : option bytes;
  hm_id : option bytes;
  hm_step : nat;
  hm_done : bool
}.
(** id_hmqv_c.rs 84-88. *)
Inductive hm_error := HmMac | HmSig.

(** id_hmqv_c.rs 110-132: [new_session]. *)
Definition hm_new (r : rng) (ssid mpk : bytes) (cert : hm_cert) (usk : scalar G) (rl : role) : hmqv * rng :=
  (Hmqv ssid cert mpk usk None None None None None (first_step rl) false, r).
(** id_hmqv_c.rs 140-144: [gen_user_keypair], also used for ephemeral keys. *)
Definition hm_gen_user (r : rng) : point G * scalar G * rng :=
  let (usk, r1) := s_random G r in (g_base G usk, usk, r1).
(** id_hmqv_c.rs 146-158: [extract]. *)
Definition hm_extract (r : rng) (msk id : bytes) (upk : point G) : hm_cert * rng :=
  (HmCert id upk (sign P Ed25519 msk (id ++ compress G upk)), r).

(** id_hmqv_c.rs 230-237 and 299-306. *)
Definition hm_cert_valid (mpk : bytes) (c : hm_cert) : bool :=
  verify P Ed25519 mpk (hmc_id c ++ compress G (hmc_upk c)) (hmc_sig c).
(** id_hmqv_c.rs 261-270 and 328-337: the two MACs and the session key of a shared point. *)
Definition hm_derive (ssid : bytes) (sigma : point G) : outcome (bytes * bytes * bytes) :=
  let! hk := from_prk (compress G sigma) in
  Ret (expand P hk (ssid ++ str "mac0") 32, expand P hk (ssid ++ str "mac1") 32,
       expand P hk (ssid ++ str "sess key") 32).

(** id_hmqv_c.rs 194-371: [run].  The comparisons are of slices of any length ([ct_eq] is
    false on different lengths). *)
Definition hm_run (s : hmqv) (r os : rng) (m : bytes)
  : outcome (hmqv * res (option bytes) hm_error * rng) :=
  match hm_step s with
  | 0%nat =>
    assert_ (List.length m =? 0)%nat
    (let '(eph_pk, eph_sk, r1) := hm_gen_user r in
     Ret (Hmqv (hm_ssid s) (hm_cert_ s) (hm_mpk s) (hm_usk s) (Some eph_sk) (Some eph_pk) (hm_macs s)
            (hm_key s) (hm_id s) (hm_step s + 2) (hm_done s),
          Ok (Some (compress G eph_pk ++ hm_cert_to_bytes (hm_cert_ s))), r1))
  | 1%nat =>
    let! (ephb, certb) := split_at 32 m in
    let! eph := decompress G ephb in
    let! cert := hm_cert_from_bytes certb in
    if negb (hm_cert_valid (hm_mpk s) cert) then Ret (s, Err HmSig, r) else
    let upk := hmc_upk cert in
    let '(eph_pk, eph_sk, r1) := hm_gen_user r in
    let d := s_from_hash P G (ephb ++ hmc_id (hm_cert_ s)) in
    let e := s_from_hash P G (compress G eph_pk ++ hmc_id cert) in
    let sigma := g_mul G (g_add G eph (g_mul G upk d)) (s_add G eph_sk (s_mul G e (hm_usk s))) in
    let! (mac0, mac1, key) := hm_derive (hm_ssid s) sigma in
    Ret (Hmqv (hm_ssid s) (hm_cert_ s) (hm_mpk s) (hm_usk s) (hm_eph_sk s) (hm_eph_pk s) (Some (mac0, mac1))
           (Some key) (Some (hmc_id cert)) (hm_step s + 2) (hm_done s),
         Ok (Some (compress G eph_pk ++ mac1 ++ hm_cert_to_bytes (hm_cert_ s))), r1)
  | 2%nat =>
    let! (ephb, rest) := split_at 32 m in
    let! (mac, certb) := split_at 32 rest in
    let! eph := decompress G ephb in
    let! cert := hm_cert_from_bytes certb in
    if negb (hm_cert_valid (hm_mpk s) cert) then Ret (s, Err HmSig, r) else
    let upk := hmc_upk cert in
    let! my_eph := unwrap (hm_eph_pk s) in
    let! my_sk := unwrap (hm_eph_sk s) in
    let d := s_from_hash P G (compress G my_eph ++ hmc_id cert) in
    let e := s_from_hash P G (ephb ++ hmc_id (hm_cert_ s)) in
    let sigma := g_mul G (g_add G eph (g_mul G upk e)) (s_add G my_sk (s_mul G d (hm_usk s))) in
    let! (mac0, mac1, key) := hm_derive (hm_ssid s) sigma in
    if negb (beq mac mac1) then
      Ret (Hmqv (hm_ssid s) (hm_cert_ s) (hm_mpk s) (hm_usk s) (hm_eph_sk s) (hm_eph_pk s) (hm_macs s)
             (Some key) (Some (hmc_id cert)) (hm_step s) (hm_done s), Err HmMac, r)
    else
      Ret (Hmqv (hm_ssid s) (hm_cert_ s) (hm_mpk s) (hm_usk s) (hm_eph_sk s) (hm_eph_pk s) (hm_macs s)
             (Some key) (Some (hmc_id cert)) (hm_step s + 2) true, Ok (Some mac0), r)
  | 3%nat =>
    let! (mac0, mac1) := unwrap (hm_macs s) in
    if negb (beq m mac0) then Ret (s, Err HmMac, r)
    else
      Ret (Hmqv (hm_ssid s) (hm_cert_ s) (hm_mpk s) (hm_usk s) (hm_eph_sk s) (hm_eph_pk s) (hm_macs s)
             (hm_key s) (hm_id s) (hm_step s + 2) true, Ok None, r)
  | _ => Panic
  end.

(** id_hmqv_c.rs 168-192: [run_sim]. *)
Definition hm_sim (s : hmqv) : outcome (hmqv * option nat) :=
  let next := Hmqv (hm_ssid s) (hm_cert_ s) (hm_mpk s) (hm_usk s) (hm_eph_sk s) (hm_eph_pk s) (hm_macs s)
                (hm_key s) (hm_id s) (hm_step s + 2) (hm_done s) in
  match hm_step s with
  | 0%nat => Ret (next, Some (32 + hm_cert_size)%nat)
  | 1%nat => Ret (next, Some (32 + 32 + hm_cert_size)%nat)
  | 2%nat => Ret (next, Some 32%nat)
  | 3%nat => Ret (next, None)
  | _ => Panic
  end.

Definition IdHmqvC : ibke := {|
  MPK := bytes; MSK := bytes; UPK := point G; USK := scalar G;
  CERT := hm_cert; IST := hmqv; IERR := hm_error;
  mpk_bytes := fun k => k;
  cert_id := hmc_id;                        (* 60-64 *)
  gen_main := sig_keygen P Ed25519;         (* 134-138 *)
  gen_user := hm_gen_user;
  ik_extract := hm_extract;
  ik_new := hm_new;
  ik_run := hm_run;
  ik_sim := hm_sim;
  ik_done := hm_done;                       (* 164-166 *)
  ik_fin := fun s =>                        (* 160-162 *)
    let! id := unwrap (hm_id s) in let! k := unwrap (hm_key s) in Ret (id, k)
|}.
End HMQV.
Arguments HmCert {G}. Arguments hmc_id {G}. Arguments hmc_upk {G}. Arguments hmc_sig {G}.
Arguments Hmqv {G}. Arguments hm_ssid {G}. Arguments hm_cert_ {G}. Arguments hm_mpk {G}. Arguments hm_usk {G}.
Arguments hm_eph_sk {G}. Arguments hm_eph_pk {G}. Arguments hm_macs {G}. Arguments hm_key {G}. Arguments hm_id {G}.
Arguments hm_step {G}. Arguments hm_done {G}.

(* ------------------------------------------------------------------ *)
(** ** FG-IBKE-C (fg_ibke.rs) *)
Section FG.
Variable P : prims.
Variable G : group.

(** fg_ibke.rs 21-25: [struct FgIbkeCert]. *)
Record fg_cert := FgCert { fgc_id : bytes; fgc_X : point G; fgc_xhat : scalar G }.

(** fg_ibke.rs 34-49: [struct FgIbkeC].  The running transcript hash is the byte string fed
    to the extractor so far. *)
Record fgibke := FgIbke {
  fg_ssid : bytes;
  fg_mpk : bytes;
  fg_cert_ : fg_cert;
  fg_trans : bytes;
  fg_eph_sk : option (scalar G);
  fg_eph_pk : option (point G);
  fg_id : option bytes;
  fg_macs : option (bytes * bytes);
  fg_key : option bytes;
  fg_done : bool;
  fg_step : nat
}.

(** fg_ibke.rs 60-64: [gen_main_keypair]. *)
Definition fg_gen_main (r : rng) : bytes * scalar G * rng :=
  let (msk, r1) := s_random G r in (compress G (g_base G msk), msk, r1).
(** fg_ibke.rs 66-68: [gen_user_keypair]. *)
Definition fg_gen_user (r : rng) : unit * unit * rng := (tt, tt, r).
(** fg_ibke.rs 74-79, 158-163 and 213-218: the hash of an id and the encoding of X. *)
Definition fg_hash (id Xb : bytes) : scalar G := s_from_hash P G ([2] ++ id ++ Xb).
(** fg_ibke.rs 70-83: [extract]. *)
Definition fg_extract (r : rng) (msk : scalar G) (id : bytes) (upk : unit) : fg_cert * rng :=
  let (x, r1) := s_random G r in
  let X := g_base G x in
  let h := fg_hash id (compress G X) in
  (FgCert id X (s_add G x (s_mul G h msk)), r1).
(** fg_ibke.rs 85-110: [new_session]. *)
Definition fg_new (r : rng) (ssid mpk : bytes) (cert : fg_cert) (usk : unit) (rl : role) : fgibke * rng :=
  (FgIbke ssid mpk cert [] None None None None None false (first_step rl), r).

(** fg_ibke.rs 170-183 and 225-237: the MACs and the session key of the two shared points. *)
Definition fg_derive (alpha beta : point G) : outcome (bytes * bytes * bytes) :=
  let! hk := from_prk (compress G alpha ++ compress G beta) in
  let h := expand P hk (str "fg-expand") 96 in
  let! (macs, key) := split_at 64 h in
  let! (mac0, mac1) := split_at 32 macs in
  Ret (mac0, mac1, key).

(** fg_ibke.rs 271-276: non-empty incoming message, then the outgoing one, enter the transcript. *)
Definition fg_absorb (t m : bytes) (out : option bytes) : bytes :=
  (if (0 <? List.length m)%nat then t ++ m else t) ++ match out with Some o => o | None => [] end.

(** fg_ibke.rs 112-279: [run].  The assignments made on every success (269-276) are in each
    branch. *)
Definition fg_run (s : fgibke) (r os : rng) (m : bytes)
  : outcome (fgibke * res (option bytes) unit * rng) :=
  match fg_step s with
  | 0%nat =>
    assert_ (List.length m =? 0)%nat
    (let (eph_sk, r1) := s_random G r in
     let eph_pk := g_base G eph_sk in
     let out := Some (fgc_id (fg_cert_ s) ++ compress G (fgc_X (fg_cert_ s)) ++ compress G eph_pk) in
     Ret (FgIbke (fg_ssid s) (fg_mpk s) (fg_cert_ s) (fg_absorb (fg_trans s) m out) (Some eph_sk) (Some eph_pk)
            (fg_id s) (fg_macs s) (fg_key s) (fg_done s) (fg_step s + 2), Ok out, r1))
  | 1%nat =>
    let! (id, rest) := split_at ID_LEN m in
    let! (Xb, ephb) := split_at 32 rest in
    let! X := decompress G Xb in
    let! eph := decompress G ephb in
    let (eph_sk, r1) := s_random G r in
    let eph_pk := g_base G eph_sk in
    let h := fg_hash id Xb in
    let! mpk := decompress G (fg_mpk s) in
    let alpha := g_mul G eph eph_sk in
    let beta := g_mul G (g_add G (g_add G eph X) (g_mul G mpk h)) (s_add G eph_sk (fgc_xhat (fg_cert_ s))) in
    let! (mac0, mac1, key) := fg_derive alpha beta in
    let out := Some (fgc_id (fg_cert_ s) ++ compress G (fgc_X (fg_cert_ s)) ++ compress G eph_pk ++ mac1) in
    Ret (FgIbke (fg_ssid s) (fg_mpk s) (fg_cert_ s) (fg_absorb (fg_trans s) m out) (fg_eph_sk s) (fg_eph_pk s)
           (Some id) (Some (mac0, mac1)) (Some key) (fg_done s) (fg_step s + 2), Ok out, r1)
  | 2%nat =>
    let! (id, rest) := split_at ID_LEN m in
    let! (Xb, rest) := split_at 32 rest in
    let! (ephb, mac) := split_at 32 rest in
    let! X := decompress G Xb in
    let! eph := decompress G ephb in
    let h := fg_hash id Xb in
    let! my_sk := unwrap (fg_eph_sk s) in
    let! mpk := decompress G (fg_mpk s) in
    let alpha := g_mul G eph my_sk in
    let beta := g_mul G (g_add G (g_add G eph X) (g_mul G mpk h)) (s_add G my_sk (fgc_xhat (fg_cert_ s))) in
    let! (mac0, mac1, key) := fg_derive alpha beta in
    if negb (beq mac1 mac) then
      Ret (FgIbke (fg_ssid s) (fg_mpk s) (fg_cert_ s) (fg_trans s) (fg_eph_sk s) (fg_eph_pk s)
             (Some id) (fg_macs s) (Some key) (fg_done s) (fg_step s), Err tt, r)
    else
      let out := Some mac0 in
      Ret (FgIbke (fg_ssid s) (fg_mpk s) (fg_cert_ s) (fg_absorb (fg_trans s) m out) (fg_eph_sk s) (fg_eph_pk s)
             (Some id) (fg_macs s) (Some key) true (fg_step s + 2), Ok out, r)
  | 3%nat =>
    let! (mac0, mac1) := unwrap (fg_macs s) in
    if negb (beq mac0 m) then Ret (s, Err tt, r)
    else
      Ret (FgIbke (fg_ssid s) (fg_mpk s) (fg_cert_ s) (fg_absorb (fg_trans s) m None) (fg_eph_sk s) (fg_eph_pk s)
             (fg_id s) (fg_macs s) (fg_key s) true (fg_step s + 2), Ok None, r)
  | _ => Panic
  end.

(** fg_ibke.rs 289-301: [finalize]. *)
Definition fg_fin (s : fgibke) : outcome (bytes * bytes) :=
  let! k := unwrap (fg_key s) in
  let prk := extract P (Some (str "fgibke-tr-hash")) (fg_trans s ++ k) in
  let key := expand P prk (fg_ssid s ++ str "fgibke-final") 32 in
  let! id := unwrap (fg_id s) in
  Ret (id, key).

Definition FgIbkeC : ibke := {|
  MPK := bytes; MSK := scalar G; UPK := unit; USK := unit;
  CERT := fg_cert; IST := fgibke; IERR := unit;
  mpk_bytes := fun k => k;                  (* 341-345 *)
  cert_id := fgc_id;                        (* 27-31 *)
  gen_main := fg_gen_main;
  gen_user := fg_gen_user;
  ik_extract := fg_extract;
  ik_new := fg_new;
  ik_run := fg_run;
  ik_sim := fun s => Panic;                 (* 281-283: todo!() *)
  ik_done := fg_done;                       (* 285-287 *)
  ik_fin := fg_fin
|}.
End FG.
Arguments FgCert {G}. Arguments fgc_id {G}. Arguments fgc_X {G}. Arguments fgc_xhat {G}.
Arguments FgIbke {G}. Arguments fg_ssid {G}. Arguments fg_mpk {G}. Arguments fg_cert_ {G}. Arguments fg_trans {G}.
Arguments fg_eph_sk {G}. Arguments fg_eph_pk {G}. Arguments fg_id {G}. Arguments fg_macs {G}. Arguments fg_key {G}.
Arguments fg_done {G}. Arguments fg_step {G}.

(* ------------------------------------------------------------------ *)
(** ** ID-SIGMA-R (id_sigma_r.rs) *)

(** id_sigma_r.rs 40-44, 61-65, 108-112: keys and signatures, tagged with their scheme. *)
Definition tagged : Type := scheme * bytes.
(** id_sigma_r.rs 46-59: [IdSigmaPrivkey::sign]. *)
Definition t_sign (P : prims) (sk : tagged) (m : bytes) : tagged := (fst sk, sign P (fst sk) (snd sk) m).
Definition scheme_eqb (a b : scheme) : bool :=
  match a, b with Dilithium2, Dilithium2 | Ed25519, Ed25519 => true | _, _ => false end.
(** id_sigma_r.rs 87-105: [IdSigmaPubkey::verify]; panics on a scheme mismatch. *)
Definition t_verify (P : prims) (pk : tagged) (m : bytes) (sg : tagged) : outcome bool :=
  assert_ (scheme_eqb (fst pk) (fst sg)) (Ret (verify P (fst pk) (snd pk) m (snd sg))).
(** id_sigma_r.rs 115-120: [IdSigmaSignature::size]. *)
Definition sm_sig_size (ty : scheme) : nat := sig_len ty.
(** id_sigma_r.rs 122-131: [IdSigmaSignature::from_bytes] (the Dilithium crate accepts any
    length up to the maximum; the [unwrap] panics above it). *)
Definition sm_sig_from_bytes (ty : scheme) (b : bytes) : outcome tagged :=
  match ty with
  | Dilithium2 => assert_ (List.length b <=? sig_len Dilithium2)%nat (Ret (Dilithium2, b))
  | Ed25519 => let! b := copy_exact 64 b in Ret (Ed25519, b)
  end.

(** id_sigma_r.rs 162-167: [SigmaError], without payloads. *)
Inductive sm_error := SmKem | SmInvalidLength | SmSig | SmMac.

(** id_sigma_r.rs 196-200: [struct SigmaCert]. *)
Record sm_cert := SmCert { smc_id : bytes; smc_upk : tagged; smc_sig : tagged }.
(** id_sigma_r.rs 203-210. *)
Definition sm_cert_size (ty : scheme) : nat := ID_LEN + pk_len ty + sig_len ty.
(** id_sigma_r.rs 213-215. *)
Definition sm_cert_to_bytes (c : sm_cert) : bytes := smc_id c ++ snd (smc_upk c) ++ snd (smc_sig c).
(** id_sigma_r.rs 218-254.  After the length check the Dilithium constructors cannot fail. *)
Definition sm_cert_from_bytes (P : prims) (ty : scheme) (b : bytes) : outcome (res sm_cert sm_error) :=
  if negb (List.length b =? sm_cert_size ty)%nat then Ret (Err SmInvalidLength) else
  let! (id, rest) := split_at ID_LEN b in
  let! (upk, sg) := split_at (pk_len ty) rest in
  match ty with
  | Dilithium2 =>
    if negb (List.length upk =? pk_len Dilithium2)%nat then Ret (Err SmInvalidLength) else
    if negb (List.length sg <=? sig_len Dilithium2)%nat then Ret (Err SmInvalidLength) else
    Ret (Ok (SmCert id (Dilithium2, upk) (Dilithium2, sg)))
  | Ed25519 =>
    let! upk := ed_pk_from_bytes P upk in
    let! sg := ed_sig_from_bytes sg in
    Ret (Ok (SmCert id (Ed25519, upk) (Ed25519, sg)))
  end.

(** id_sigma_r.rs 265-290: [struct IdSigmaR]. *)
Record sigma := Sigma {
  sm_ssid : bytes;
  sm_nonces : option bytes * option bytes;
  sm_mpk : tagged;
  sm_cert_ : sm_cert;
  sm_sk : tagged;
  sm_kpk : option pk_cpa;
  sm_ksk : option sk_cpa;
  sm_ct : option bytes;
  sm_mac : option bytes;
  sm_enc : option (bytes * bytes);
  sm_id : option bytes;
  sm_key : option bytes;
  sm_step : nat;
  sm_done : bool
}.

(** id_sigma_r.rs 293-322: [gen_main_keypair] and [gen_user_keypair]. *)
Definition sm_gen (P : prims) (ty : scheme) (r : rng) : tagged * tagged * rng :=
  let '(pk, sk, r1) := sig_keygen P ty r in ((ty, pk), (ty, sk), r1).
(** id_sigma_r.rs 324-336: [extract]. *)
Definition sm_extract (P : prims) (r : rng) (msk : tagged) (id : bytes) (upk : tagged) : sm_cert * rng :=
  (SmCert id upk (t_sign P msk (id ++ snd upk)), r).
(** id_sigma_r.rs 339-377: [new_session]. *)
Definition sm_new (r : rng) (ssid : bytes) (mpk : tagged) (cert : sm_cert) (usk : tagged) (rl : role) : sigma * rng :=
  let (nonce, r1) := draw 32 r in
  let nonces := match rl with Initiator => (Some nonce, None) | Responder => (None, Some nonce) end in
  (Sigma ssid nonces mpk cert usk None None None None None None None (first_step rl) false, r1).

(** id_sigma_r.rs 468-479 and 504-515: the keys of a shared secret: output key, MAC key and
    the two encryption keys. *)
Definition sm_keys (P : prims) (ss : bytes) : outcome (bytes * bytes * bytes * bytes) :=
  let! hk := from_prk ss in
  Ret (expand P hk (str "output_key") 32, expand P hk (str "mac_key") 32,
       expand P hk (str "enc_key_a") 64, expand P hk (str "enc_key_b") 64).

(** id_sigma_r.rs 549-558 and 621-630: the parts of a decrypted key confirmation message:
    signature, MAC, certificate and the bytes of the certificate. *)
Definition sm_parse (P : prims) (ty : scheme) (pt : bytes) : outcome (tagged * bytes * bytes * res sm_cert sm_error) :=
  let! (sig_mac, certb) := split_last (sm_cert_size ty) pt in
  let! (sg, mac) := split_at (sm_sig_size ty) sig_mac in
  let! sg := sm_sig_from_bytes ty sg in
  let! cert := sm_cert_from_bytes P ty certb in
  Ret (sg, mac, certb, cert).
(** id_sigma_r.rs 562-565 and 634-637. *)
Definition sm_cert_valid (P : prims) (mpk : tagged) (c : sm_cert) : outcome bool :=
  t_verify P mpk (smc_id c ++ snd (smc_upk c)) (smc_sig c).
(** id_sigma_r.rs 522-530, 568-576: what the initiator signs. *)
Definition sm_transcript_a (nonce_b ssid : bytes) (pk : pk_cpa) (ct certb : bytes) : bytes :=
  [0] ++ nonce_b ++ ssid ++ pk_to_bytes pk ++ ct ++ certb.
(** id_sigma_r.rs 588-596, 640-648: what the responder signs. *)
Definition sm_transcript_b (nonce_a ssid : bytes) (pk : pk_cpa) (ct certb : bytes) : bytes :=
  [1] ++ nonce_a ++ ssid ++ ct ++ pk_to_bytes pk ++ certb.

(** The session with the peer's id stored (id_sigma_r.rs 558, 630). *)
Definition sm_set_id (s : sigma) (id : bytes) : sigma :=
  Sigma (sm_ssid s) (sm_nonces s) (sm_mpk s) (sm_cert_ s) (sm_sk s) (sm_kpk s) (sm_ksk s) (sm_ct s) (sm_mac s)
    (sm_enc s) (Some id) (sm_key s) (sm_step s) (sm_done s).
(** The session after its last successful step (id_sigma_r.rs 615, 658 and 667). *)
Definition sm_finish (s : sigma) : sigma :=
  Sigma (sm_ssid s) (sm_nonces s) (sm_mpk s) (sm_cert_ s) (sm_sk s) (sm_kpk s) (sm_ksk s) (sm_ct s) (sm_mac s)
    (sm_enc s) (sm_id s) (sm_key s) (sm_step s + 2) true.

(** id_sigma_r.rs 431-670: [run]. *)
Definition sm_run (P : prims) (h : saber_prims) (s : sigma) (r os : rng) (m : bytes)
  : outcome (sigma * res (option bytes) sm_error * rng) :=
  let ty := fst (sm_mpk s) in
  match sm_step s with
  | 0%nat =>
    assert_ (List.length m =? 0)%nat
    (let '(kpk, ksk, _) := keygen_ind_cpa h LightSaber os in
     let! nonce := unwrap (fst (sm_nonces s)) in
     Ret (Sigma (sm_ssid s) (sm_nonces s) (sm_mpk s) (sm_cert_ s) (sm_sk s) (Some kpk) (Some ksk) (sm_ct s)
            (sm_mac s) (sm_enc s) (sm_id s) (sm_key s) (sm_step s + 2) (sm_done s),
          Ok (Some (nonce ++ pk_to_bytes kpk)), r))
  | 1%nat =>
    let! (nonce, kpkb) := split_at 32 m in
    let! kpk := indcpa_pk_from_bytes LightSaber kpkb in
    let '(ss, ct, _) := encapsulate_ind_cpa h LightSaber os kpk in
    let! (out, mac, ea, eb) := sm_keys P ss in
    let! my_nonce := unwrap (snd (sm_nonces s)) in
    Ret (Sigma (sm_ssid s) (Some nonce, snd (sm_nonces s)) (sm_mpk s) (sm_cert_ s) (sm_sk s) (Some kpk) (sm_ksk s)
           (Some ct) (Some mac) (Some (ea, eb)) (sm_id s) (Some out) (sm_step s + 2) (sm_done s),
         Ok (Some (my_nonce ++ ct)), r)
  | 2%nat =>
    let! (nonce, ctb) := split_at 32 m in
    assert_ (List.length ctb =? BYTES_CCA_DEC LightSaber)%nat
    (let! c := ciphertext_from_bytes LightSaber ctb in
     match c with
     | Err _ => Ret (s, Err SmKem, r)
     | Ok ct =>
       let! ksk := unwrap (sm_ksk s) in
       let ss := decapsulate_ind_cpa LightSaber ct ksk in
       let! (out, mac, ea, eb) := sm_keys P ss in
       let certb := sm_cert_to_bytes (sm_cert_ s) in
       let! kpk := unwrap (sm_kpk s) in
       let sg := t_sign P (sm_sk s) (sm_transcript_a nonce (sm_ssid s) kpk ct certb) in
       let tag := hmac P mac ([0] ++ smc_id (sm_cert_ s)) in
       let (enc, r1) := auth_encrypt P r ea (snd sg ++ tag ++ certb) in
       Ret (Sigma (sm_ssid s) (fst (sm_nonces s), Some nonce) (sm_mpk s) (sm_cert_ s) (sm_sk s) (sm_kpk s) (sm_ksk s)
              (Some ct) (Some mac) (Some (ea, eb)) (sm_id s) (Some out) (sm_step s + 2) (sm_done s),
            Ok (Some enc), r1)
     end)
  | 3%nat =>
    let! (ea, eb) := unwrap (sm_enc s) in
    let! d := auth_decrypt P ea m in
    match d with
    | Err _ => Ret (s, Err SmMac, r)
    | Ok pt =>
      let! (sg, mac, certb, pc) := sm_parse P ty pt in
      match pc with
      | Err e => Ret (s, Err e, r)
      | Ok cert =>
        let s1 := sm_set_id s (smc_id cert) in
        let! v := sm_cert_valid P (sm_mpk s) cert in
        if negb v then Ret (s1, Err SmSig, r) else
        let! nonce_b := unwrap (snd (sm_nonces s)) in
        let! kpk := unwrap (sm_kpk s) in
        let! ct := unwrap (sm_ct s) in
        let! v := t_verify P (smc_upk cert) (sm_transcript_a nonce_b (sm_ssid s) kpk ct certb) sg in
        if negb v then Ret (s1, Err SmSig, r) else
        let! mk := unwrap (sm_mac s) in
        if negb (beq (hmac P mk ([0] ++ smc_id cert)) mac) then Ret (s1, Err SmMac, r) else
        let mycertb := sm_cert_to_bytes (sm_cert_ s) in
        let! nonce_a := unwrap (fst (sm_nonces s)) in
        let sg' := t_sign P (sm_sk s) (sm_transcript_b nonce_a (sm_ssid s) kpk ct mycertb) in
        let tag := hmac P mk ([1] ++ smc_id (sm_cert_ s)) in
        let (enc, r1) := auth_encrypt P r eb (snd sg' ++ tag ++ mycertb) in
        Ret (sm_finish s1, Ok (Some enc), r1)
      end
    end
  | 4%nat =>
    let! (ea, eb) := unwrap (sm_enc s) in
    let! d := auth_decrypt P eb m in
    match d with
    | Err _ => Ret (s, Err SmMac, r)
    | Ok pt =>
      let! (sg, mac, certb, pc) := sm_parse P ty pt in
      match pc with
      | Err e => Ret (s, Err e, r)
      | Ok cert =>
        let s1 := sm_set_id s (smc_id cert) in
        let! v := sm_cert_valid P (sm_mpk s) cert in
        if negb v then Ret (s1, Err SmSig, r) else
        let! nonce_a := unwrap (fst (sm_nonces s)) in
        let! kpk := unwrap (sm_kpk s) in
        let! ct := unwrap (sm_ct s) in
        let! v := t_verify P (smc_upk cert) (sm_transcript_b nonce_a (sm_ssid s) kpk ct certb) sg in
        if negb v then Ret (s1, Err SmSig, r) else
        let! mk := unwrap (sm_mac s) in
        if negb (beq (hmac P mk ([1] ++ smc_id cert)) mac) then Ret (s1, Err SmMac, r) else
        Ret (sm_finish s1, Ok None, r)
      end
    end
  | _ => Panic
  end.

(** id_sigma_r.rs 387-429: [run_sim]; auth_enc.rs: TAGLEN is 32. *)
Definition sm_sim (s : sigma) : outcome (sigma * option nat) :=
  let ty := fst (sm_mpk s) in
  let next d := Sigma (sm_ssid s) (sm_nonces s) (sm_mpk s) (sm_cert_ s) (sm_sk s) (sm_kpk s) (sm_ksk s) (sm_ct s)
                  (sm_mac s) (sm_enc s) (sm_id s) (sm_key s) (sm_step s + 2) d in
  match sm_step s with
  | 0%nat => Ret (next (sm_done s), Some (32 + INDCPA_PUBLICKEYBYTES LightSaber)%nat)
  | 1%nat => Ret (next (sm_done s), Some (32 + BYTES_CCA_DEC LightSaber)%nat)
  | 2%nat => Ret (next (sm_done s), Some (sm_sig_size ty + 32 + sm_cert_size ty + TAGLEN)%nat)
  | 3%nat => Ret (next true, Some (sm_sig_size ty + 32 + sm_cert_size ty + TAGLEN)%nat)
  | 4%nat => Ret (next true, None)
  | _ => Panic
  end.

(** id_sigma_r.rs 675-790: the newtypes [IdSigmaREd25519] and [IdSigmaRDilithium2]. *)
Definition IdSigmaR (ty : scheme) (P : prims) (h : saber_prims) : ibke := {|
  MPK := tagged; MSK := tagged; UPK := tagged; USK := tagged;
  CERT := sm_cert; IST := sigma; IERR := sm_error;
  mpk_bytes := snd;                         (* 76-85 *)
  cert_id := smc_id;                        (* 257-261 *)
  gen_main := sm_gen P ty;
  gen_user := sm_gen P ty;
  ik_extract := sm_extract P;
  ik_new := sm_new;
  ik_run := sm_run P h;
  ik_sim := sm_sim;
  ik_done := sm_done;                       (* 379-381 *)
  ik_fin := fun s =>                        (* 383-385 *)
    let! id := unwrap (sm_id s) in let! k := unwrap (sm_key s) in Ret (id, k)
|}.
