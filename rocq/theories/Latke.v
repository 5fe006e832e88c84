(** * Latke: model of latke/src/latke.rs. *)
From Coq Require Import ZArith List Lia Bool String.
From Verif Require Import Base Crypto Symmetric Driver Pakes Eue.
Import ListNotations.
Open Scope Z_scope.

(** The operating system's randomness of one call to [run], as two independent sources: one
    for the PAKE (whose crates draw from it) and one for the IBKE. Every pair of sources is
    the split of some source, so nothing is lost. *)
Definition os_pake (os : rng) : rng := fun i => os (2 * i)%nat.
Definition os_ibke (os : rng) : rng := fun i => os (2 * i + 1)%nat.

Section LATKE.
Variable P : prims.
Variable I : ibke.
Variable K : pake.

(** latke.rs 24-28: [struct LatkePwfile]. *)
Record pwfile := Pwfile { pf_mpk : MPK I; pf_cert : CERT I; pf_usk : USK I }.
(** latke.rs 40-44: [enum PeerModel]. *)
Inductive peer_model := PreSpecified (id : bytes) | PostSpecified.

(** latke.rs 13-22: [struct Latke].  The running transcript hash is the byte string fed to the
    extractor so far. *)
Record latke := Latke {
  l_ssid : bytes;
  l_pwfile : pwfile;
  l_role : role;
  l_pake : PST K;
  l_ibke : option (eue I);
  l_trans : bytes
}.

(** latke.rs 47-64: [gen_pwfile]. *)
Definition gen_pwfile (r : rng) (password id : bytes) : pwfile :=
  let seed := hash256 P password in
  let '(mpk, msk, _) := gen_main I (p_chacha12 P seed) in
  let '(upk, usk, r1) := gen_user I r in
  let '(cert, r2) := ik_extract I r1 msk id upk in
  Pwfile mpk cert usk.

(** latke.rs 75-87: the password given to the PAKE. *)
Definition pake_input (pf : pwfile) (rl : role) (peer : peer_model) : bytes :=
  match peer with
  | PostSpecified => mpk_bytes I (pf_mpk pf)
  | PreSpecified id =>
    let ids := if role_eqb rl Initiator then (cert_id I (pf_cert pf), id) else (id, cert_id I (pf_cert pf)) in
    mpk_bytes I (pf_mpk pf) ++ fst ids ++ snd ids
  end.
(** latke.rs 66-97: [new_session]. *)
Definition latke_new (r : rng) (ssid : bytes) (pf : pwfile) (rl : role) (peer : peer_model) : outcome (latke * rng) :=
  let! (ps, r1) := pk_new K r ssid (pake_input pf rl peer) rl in
  Ret (Latke ssid pf rl ps None [], r1).

(** latke.rs 105-110: run the PAKE if it is not done. Returns its state, its message and
    whether it has just finished. *)
Definition latke_pake (s : latke) (os : rng) (m : bytes) : outcome (PST K * option bytes * bool) :=
  if negb (pk_done K (l_pake s)) then
    let! (ps, o) := pk_run K (l_pake s) (os_pake os) m in
    let! out := unwrap_ok o in
    Ret (ps, out, pk_done K ps)
  else Ret (l_pake s, None, false).

(** latke.rs 116-128: the encrypted IBKE, created on first use. *)
Definition latke_eue (s : latke) (ps : PST K) (r : rng) : outcome (eue I * rng) :=
  match l_ibke s with
  | Some e => Ret (e, r)
  | None =>
    let! eue_key := pk_fin K ps in
    eue_new P I r (l_ssid s) (pf_mpk (l_pwfile s)) (pf_cert (l_pwfile s)) (pf_usk (l_pwfile s)) (l_role s) eue_key
  end.

(** latke.rs 132-138 and 145-149: run the encrypted IBKE and unwrap. *)
Definition latke_eue_run (e : eue I) (r os : rng) (m : bytes) : outcome (eue I * option bytes) :=
  let! (e', o, _) := eue_run P I e r (os_ibke os) m in
  let! out := unwrap_ok o in
  Ret (e', out).

(** latke.rs 154-158: non-empty incoming message, then the outgoing one, enter the transcript. *)
Definition latke_absorb (t m : bytes) (out : option bytes) : bytes :=
  (if (0 <? List.length m)%nat then t ++ m else t) ++ match out with Some o => o | None => [] end.

(** latke.rs 99-161: [run]. *)
Definition latke_run (s : latke) (r os : rng) (m : bytes) : outcome (latke * option bytes) :=
  let! (ps, out, just) := latke_pake s os m in
  match out with
  | Some o =>
    Ret (Latke (l_ssid s) (l_pwfile s) (l_role s) ps (l_ibke s) (latke_absorb (l_trans s) m out), out)
  | None =>
    let! (e, r1) := latke_eue s ps r in
    let! (e', out) :=
      (if just then
         if role_eqb (l_role s) Initiator then latke_eue_run e r1 os [] else Ret (e, None)
       else latke_eue_run e r1 os m) in
    Ret (Latke (l_ssid s) (l_pwfile s) (l_role s) ps (Some e') (latke_absorb (l_trans s) m out), out)
  end.

(** latke.rs 163-169: [is_done]. *)
Definition latke_done (s : latke) : bool :=
  match l_ibke s with Some e => eue_done I e | None => false end.

(** latke.rs 171-186: [finalize]. *)
Definition latke_fin (s : latke) : outcome (bytes * bytes) :=
  let! e := unwrap (l_ibke s) in
  let! (id, k) := eue_fin I e in
  let hk := extract P (Some (str "latke-tr-hash")) (l_trans s ++ k) in
  Ret (id, expand P hk (str "latke-final") 32).

Definition latke_machine : machine := {|
  m_st := latke; m_err := Empty_set;
  m_run := fun s rr m => let! (s', o) := latke_run s (fst rr) (snd rr) m in Ret (s', Ok o);
  m_done := latke_done |}.
End LATKE.
Arguments Pwfile {I}. Arguments pf_mpk {I}. Arguments pf_cert {I}. Arguments pf_usk {I}.
Arguments Latke {I K}. Arguments l_ssid {I K}. Arguments l_pwfile {I K}. Arguments l_role {I K}.
Arguments l_pake {I K}. Arguments l_ibke {I K}. Arguments l_trans {I K}.
