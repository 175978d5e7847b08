(** C12, C39: what the factories of fermion terms and the Bond constructor refuse, and how. *)
From Coq Require Import String List ZArith Bool Lia.
From Verif Require Import Py GQ Float64_Model State_Model MatrixRepr_Model Particle_Model Bond_Model.
Import ListNotations.
Open Scope Z_scope.
Local Open Scope res_scope.

(** The answer of a factory that constructs the state of the first tuple, then that of the
    second one, and then looks at the coefficient. *)
Definition refuses (first second : res stateid) (coeff : pycoeff) (answer : res pterm) : Prop :=
  (forall e, first = Err e -> answer = Err e) /\
  (forall s e, first = Ok s -> second = Err e -> answer = Err e) /\
  (forall s s', first = Ok s -> second = Ok s' -> coeff = CBad -> answer = Err AssertionError) /\
  (forall s s', first = Ok s -> second = Ok s' -> coeff <> CBad -> exists t, answer = Ok t).
Lemma aoc_state zoom o site spin orbit : o = 0 \/ o = 1 -> make_aoc zoom o site spin orbit = match make_state zoom site spin orbit with Ok s => Ok (MkAoc (if o =? 1 then CREATION else ANNIHILATION) s) | Err e => Err e end.
Proof. intros [-> | ->]; unfold make_aoc; cbn; destruct (make_state zoom site spin orbit); reflexivity. Qed.
(** CPFactory and HubbardFactory have one tuple only; PairingFactory first looks at [which]. *)
Theorem C12_errors : forall zoom site0 site1 spin0 spin1 orbit0 orbit1 coeff,
  let first := make_state zoom site0 spin0 orbit0 in
  let second := make_state zoom site1 spin1 orbit1 in
  refuses first first coeff (CPFactory zoom site0 spin0 orbit0 coeff) /\
  refuses first second coeff (HoppingFactory zoom site0 site1 spin0 (Some spin1) orbit0 (Some orbit1) coeff) /\
  refuses first (make_state zoom site1 spin0 orbit0) coeff (HoppingFactory zoom site0 site1 spin0 None orbit0 None coeff) /\
  PairingFactory zoom site0 site1 spin0 spin1 orbit0 orbit1 coeff WhichOther = Err AssertionError /\
  (forall which, which <> WhichOther -> refuses first second coeff (PairingFactory zoom site0 site1 spin0 spin1 orbit0 orbit1 coeff which)) /\
  refuses (make_state zoom site0 (NInt 1) orbit0) (make_state zoom site0 (NInt 0) orbit0) coeff (HubbardFactory zoom site0 orbit0 coeff) /\
  refuses first second coeff (CoulombFactory zoom site0 site1 spin0 spin1 orbit0 orbit1 coeff).
Proof.
  intros zoom site0 site1 spin0 spin1 orbit0 orbit1 coeff first second. unfold refuses.
  assert (G : forall (A B : res stateid) (ans : res pterm) (mk : stateid -> stateid -> list aoc) cls,
    ans = match A with Err e => Err e | Ok s => match B with Err e => Err e | Ok s' => make_pterm (mk s s') coeff (Some (cls s s')) end end ->
    (forall e, A = Err e -> ans = Err e) /\ (forall s e, A = Ok s -> B = Err e -> ans = Err e) /\ (forall s s', A = Ok s -> B = Ok s' -> coeff = CBad -> ans = Err AssertionError) /\ (forall s s', A = Ok s -> B = Ok s' -> coeff <> CBad -> exists t, ans = Ok t)).
  { intros A B ans mk cls ->. split; [intros e ->; reflexivity|]. split; [intros s e -> ->; reflexivity|]. split; intros s s' -> -> Hc; [rewrite Hc; reflexivity|]. destruct coeff as [g|]; [eexists; reflexivity|now elim Hc]. }
  split; [|split; [|split; [|split; [reflexivity|split; [|split]]]]].
  - apply (G first first _ (fun s _ => [MkAoc CREATION s; MkAoc ANNIHILATION s]) (fun _ _ => Tnumber)). unfold CPFactory. rewrite !aoc_state by tauto. fold first. destruct first; reflexivity.
  - apply (G first second _ (fun s s' => [MkAoc CREATION s; MkAoc ANNIHILATION s']) (fun s s' => if state_ne s s' then Thopping else Tnumber)). unfold HoppingFactory. cbn [get]. rewrite !aoc_state by tauto. fold first. destruct first; [|reflexivity]. cbn [bind]. fold second. destruct second; reflexivity.
  - apply (G first (make_state zoom site1 spin0 orbit0) _ (fun s s' => [MkAoc CREATION s; MkAoc ANNIHILATION s']) (fun s s' => if state_ne s s' then Thopping else Tnumber)). unfold HoppingFactory. cbn [get]. rewrite !aoc_state by tauto. fold first. destruct first; [|reflexivity]. cbn [bind]. destruct (make_state zoom site1 spin0 orbit0); reflexivity.
  - intros which Hw. set (o := match which with WhichH | WhichHole => ANNIHILATION | _ => CREATION end). apply (G first second _ (fun s s' => [MkAoc o s; MkAoc o s']) (fun _ _ => Tgeneral)).
    unfold PairingFactory. destruct which; try (now elim Hw); rewrite !aoc_state by tauto; fold first; (destruct first; [|reflexivity]); cbn [bind]; fold second; destruct second; reflexivity.
  - apply (G _ _ _ (fun s s' => [MkAoc CREATION s; MkAoc ANNIHILATION s; MkAoc CREATION s'; MkAoc ANNIHILATION s']) (fun _ _ => TCoulomb)). unfold HubbardFactory. rewrite !aoc_state by tauto. destruct (make_state zoom site0 (NInt 1) orbit0); [|reflexivity]. cbn [bind]. destruct (make_state zoom site0 (NInt 0) orbit0); reflexivity.
  - apply (G first second _ (fun s s' => [MkAoc CREATION s; MkAoc ANNIHILATION s; MkAoc CREATION s'; MkAoc ANNIHILATION s']) (fun _ _ => TCoulomb)). unfold CoulombFactory. rewrite !aoc_state by tauto. fold first. destruct first; [|reflexivity]. cbn [bind]. fold second. destruct second; reflexivity.
Qed.
Print Assumptions C12_errors.
(** Two arguments that are no sequences of numbers. *)
Theorem C39_shapes : forall zoom s0 s1 d, make_bond zoom (PShape s0) (PShape s1) d = Err AssertionError.
Proof. reflexivity. Qed.
Print Assumptions C39_shapes.
(** Non-vacuity *)
Example C12_errors_case : make_state default_zoom [NInt 0] (NInt (-1)) (NInt 0) = Err AssertionError /\
  CPFactory default_zoom [NInt 0] (NInt (-1)) (NInt 0) (CNum g1) = Err AssertionError /\
  CPFactory default_zoom [NInt 0] (NInt 0) (NInt 0) CBad = Err AssertionError /\ exists t, CPFactory default_zoom [NInt 0] (NInt 0) (NInt 0) (CNum g1) = Ok t.
Proof. repeat split; try (vm_compute; reflexivity). eexists. vm_compute. reflexivity. Qed.
