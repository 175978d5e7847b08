(** Constructors and factories of spin operators; rounded lengths and angles of bonds (C23, C28, C39). *)
From Coq Require Import Reals String List ZArith Bool Arith Lia Lra.
From Flocq Require Import Core.
From Verif Require Import Py GQ Float64_Model State_Model MatrixRepr_Model Particle_Model Spin_Model Spin_Spec Spin_Proofs Spin_Proofs3 Bond_Model.
Import ListNotations.
Local Open Scope string_scope.

(** SpinOperator(otype, site): one of the five types, and a site that SiteID accepts. *)
Theorem C23_constructor : forall zoom otype site,
  (~ In otype ["x"; "y"; "z"; "p"; "m"] -> make_spin zoom otype site = Err AssertionError) /\
  (In otype ["x"; "y"; "z"; "p"; "m"] ->
     (forall s, make_site zoom site = Ok s -> exists x, make_spin zoom otype site = Ok x /\ otype_name (so_otype x) = otype /\ so_site x = s) /\
     (forall e, make_site zoom site = Err e -> make_spin zoom otype site = Err e)).
Proof.
  intros zoom otype site. unfold make_spin, otype_of_name. cbn [In]. split.
  - intros H. destruct (String.eqb_spec otype "x"); [elim H; auto|]. destruct (String.eqb_spec otype "y"); [elim H; auto|]. destruct (String.eqb_spec otype "z"); [elim H; auto|].
    destruct (String.eqb_spec otype "p"); [elim H; auto|]. destruct (String.eqb_spec otype "m"); [elim H; auto 10|]. reflexivity.
  - intros H. repeat destruct H as [<-|H]; try contradiction; cbn [String.eqb Ascii.eqb Bool.eqb]; (split; [intros s ->|intros e ->]); cbn [bind]; try reflexivity; eexists; (split; [reflexivity|now split]).
Qed.
Print Assumptions C23_constructor.

(** The factories: types other than x, y, z, then the sites (first site0), then the coefficient. *)
Theorem C28_errors : forall zoom site0 site1 a0 a1 coeff,
  let xyz a := In a ["x"; "y"; "z"] in
  (~ (xyz a0 /\ xyz a1) -> TwoSpinTermFactory zoom site0 site1 a0 a1 coeff = Err AssertionError) /\
  (~ xyz a0 -> IsingFactory zoom site0 site1 a0 coeff = Err AssertionError) /\
  (xyz a0 -> xyz a1 ->
    (forall e, make_site zoom site0 = Err e ->
       TwoSpinTermFactory zoom site0 site1 a0 a1 coeff = Err e /\ IsingFactory zoom site0 site1 a0 coeff = Err e /\ HeisenbergFactory zoom site0 site1 coeff = Err e) /\
    (forall s e, make_site zoom site0 = Ok s -> make_site zoom site1 = Err e ->
       TwoSpinTermFactory zoom site0 site1 a0 a1 coeff = Err e /\ IsingFactory zoom site0 site1 a0 coeff = Err e /\ HeisenbergFactory zoom site0 site1 coeff = Err e) /\
    (forall s s', make_site zoom site0 = Ok s -> make_site zoom site1 = Ok s' ->
       match coeff with
       | CBad => TwoSpinTermFactory zoom site0 site1 a0 a1 coeff = Err AssertionError /\ IsingFactory zoom site0 site1 a0 coeff = Err AssertionError /\
                 HeisenbergFactory zoom site0 site1 coeff = Err AssertionError
       | CNum _ => (exists t, TwoSpinTermFactory zoom site0 site1 a0 a1 coeff = Ok t) /\ (exists t, IsingFactory zoom site0 site1 a0 coeff = Ok t) /\
                   exists t0 t1 t2, HeisenbergFactory zoom site0 site1 coeff = Ok [t0; t1; t2]
       end)).
Proof.
  intros zoom site0 site1 a0 a1 coeff xyz.
  assert (XT : forall a, xyz a -> is_xyz a = true) by (intros a H; unfold xyz in H; cbn [In] in H; repeat destruct H as [<-|H]; try contradiction; reflexivity).
  assert (XF : forall a, ~ xyz a -> is_xyz a = false).
  { intros a H. unfold is_xyz. destruct (String.eqb_spec a "x"); [elim H; unfold xyz; cbn; auto|]. destruct (String.eqb_spec a "y"); [elim H; unfold xyz; cbn; auto|]. destruct (String.eqb_spec a "z"); [elim H; unfold xyz; cbn; auto|]. reflexivity. }
  assert (MS : forall a site, xyz a -> make_spin zoom a site = match make_site zoom site with Ok s => Ok (MkSpin (match otype_of_name a with Some o => o | None => SZ end) s) | Err e => Err e end).
  { intros a site H. unfold xyz in H. cbn [In] in H. unfold make_spin. repeat destruct H as [<-|H]; try contradiction; cbn [otype_of_name String.eqb Ascii.eqb Bool.eqb]; destruct (make_site zoom site); reflexivity. }
  assert (HF : forall o site, make_spin zoom (otype_name o) site = match make_site zoom site with Ok s => Ok (MkSpin o s) | Err e => Err e end).
  { intros o site. unfold make_spin. destruct o; cbn; now destruct (make_site zoom site). }
  assert (HS : HeisenbergFactory zoom site0 site1 coeff = match make_site zoom site0 with Err e => Err e | Ok s0 => match make_site zoom site1 with Err e => Err e | Ok s1 =>
     match coeff with CBad => Err AssertionError | CNum _ => HeisenbergFactory zoom site0 site1 coeff end end end).
  { unfold HeisenbergFactory. pose proof (HF SZ) as Z1. pose proof (HF SP) as P1. pose proof (HF SM) as M1. cbn [otype_name] in Z1, P1, M1. rewrite !Z1, !P1, !M1. destruct (make_site zoom site0); [|reflexivity]. cbn [bind]. destruct (make_site zoom site1); [|reflexivity]. cbn [bind]. now destruct coeff. }
  split; [|split].
  - intros H. unfold TwoSpinTermFactory. destruct (is_xyz a0) eqn:E0; [|reflexivity]. destruct (is_xyz a1) eqn:E1; [|reflexivity]. elim H.
    split; [destruct (in_dec string_dec a0 ["x"; "y"; "z"]) as [I|N]; [exact I|rewrite (XF a0 N) in E0; discriminate]|destruct (in_dec string_dec a1 ["x"; "y"; "z"]) as [I|N]; [exact I|rewrite (XF a1 N) in E1; discriminate]].
  - intros H. unfold IsingFactory. now rewrite (XF a0 H).
  - intros H0 H1. split; [|split].
    + intros e E. unfold TwoSpinTermFactory, IsingFactory. rewrite (XT a0 H0), (XT a1 H1), (MS a0 site0 H0), HS, E. now cbn [bind].
    + intros s e E E'. unfold TwoSpinTermFactory, IsingFactory. rewrite (XT a0 H0), (XT a1 H1), (MS a0 site0 H0), (MS a1 site1 H1), (MS a0 site1 H0), HS, E, E'. now cbn [bind].
    + intros s s' E E'. unfold TwoSpinTermFactory, IsingFactory. rewrite (XT a0 H0), (XT a1 H1), (MS a0 site0 H0), (MS a1 site1 H1), (MS a0 site1 H0). rewrite HS, E, E'. cbn [bind].
      destruct coeff as [g|]; [|now cbn]. split; [eexists; reflexivity|]. split; [eexists; reflexivity|].
      pose proof (HF SZ) as Z1. pose proof (HF SP) as P1. pose proof (HF SM) as M1. cbn [otype_name] in Z1, P1, M1. unfold HeisenbergFactory. rewrite !Z1, !P1, !M1, E, E'. cbn [bind make_inter half_coeff]. do 3 eexists. reflexivity.
Qed.
Print Assumptions C28_errors.

(** y is x rounded to n decimals. *)
Definition rounded_to (n : Z) (x y : R) : Prop := (Rabs (y - x) <= / 2 * powerRZ 10 (- n))%R /\ exists z : Z, (y * powerRZ 10 n = IZR z)%R.
Lemma around_ok n x : rounded_to n x (around (Some n) x).
Proof.
  assert (P : (0 < powerRZ 10 n)%R) by (apply powerRZ_lt; lra). unfold rounded_to, around. split.
  - pose proof (Znearest_half (fun x => negb (Z.even x)) (x * powerRZ 10 n)) as H. fold ZnearestE in H. rewrite powerRZ_neg by lra. rewrite powerRZ_inv by lra.
    replace (IZR (ZnearestE (x * powerRZ 10 n)) / powerRZ 10 n - x)%R with (- (x * powerRZ 10 n - IZR (ZnearestE (x * powerRZ 10 n))) * / powerRZ 10 n)%R by (field; lra).
    rewrite Rabs_mult, Rabs_Ropp, (Rabs_right (/ powerRZ 10 n)) by (apply Rle_ge, Rlt_le, Rinv_0_lt_compat; exact P).
    apply Rmult_le_compat_r; [apply Rlt_le, Rinv_0_lt_compat; exact P|]. exact H.
  - exists (ZnearestE (x * powerRZ 10 n)). field. lra.
Qed.
(** getLength(ndigits), getDisplace(ndigits) and getAzimuth(ndigits=...): the exact values,
    rounded to so many decimals. *)
Theorem C39_rounding : forall b n radian,
  rounded_to n (getLength b None) (getLength b (Some n)) /\
  (forall d, getDisplace b None = Ok d -> exists d', getDisplace b (Some n) = Ok d' /\ Forall2 (rounded_to n) d d') /\
  (forall t, getAzimuth b radian None = Ok (AzOne t) -> exists t', getAzimuth b radian (Some n) = Ok (AzOne t') /\ rounded_to n t t') /\
  (forall s t, getAzimuth b radian None = Ok (AzTwo s t) -> exists s' t', getAzimuth b radian (Some n) = Ok (AzTwo s' t') /\ rounded_to n s s' /\ rounded_to n t t').
Proof.
  intros b n radian. split; [apply around_ok|]. split; [|split].
  - intros d. unfold getDisplace. destruct (b_dir b); [|discriminate]. intros E. injection E as <-. eexists. split; [reflexivity|]. induction (values _) as [|x l IH]; cbn [map]; constructor; [apply around_ok|exact IH].
  - intros t. unfold getAzimuth. destruct (b_dir b); [|discriminate]. destruct (values _) as [|x [|y [|z [|]]]]; try discriminate; intros E; injection E as <-; eexists; (split; [reflexivity|apply around_ok]).
  - intros s t. unfold getAzimuth. destruct (b_dir b); [|discriminate]. destruct (values _) as [|x [|y [|z [|]]]]; try discriminate; intros E; injection E as <- <-; do 2 eexists; (split; [reflexivity|split; apply around_ok]).
Qed.
Print Assumptions C39_rounding.

(** Non-vacuity *)
Example C28_errors_case : TwoSpinTermFactory default_zoom [NInt 0] [NInt 1] "x" "p" (CNum g1) = Err AssertionError /\
  TwoSpinTermFactory default_zoom [NInt 0] [] "x" "y" (CNum g1) = Err AssertionError /\ make_spin default_zoom "w" [NInt 0] = Err AssertionError.
Proof. repeat split; vm_compute; reflexivity. Qed.
Example C39_rounding_case : exists b, make_bond (10 ^ 4) (PVec [NInt 0; NInt 0]) (PVec [NInt 1; NInt 1]) true = Ok b /\
  getLength b None = sqrt 2 /\ getLength b (Some 1%Z) = (14 / 10)%R.
Proof.
  eexists. split; [vm_compute; reflexivity|]. assert (V : values (arr_sub (AI [0; 0]%Z) (AI [1; 1]%Z)) = [-1; -1]%R) by reflexivity.
  assert (Q : norm [-1; -1]%R = sqrt 2) by (unfold norm; cbn; f_equal; lra).
  assert (S1 : (1.41 < sqrt 2)%R) by (apply Rsqr_incrst_0; [rewrite Rsqr_sqrt by lra; unfold Rsqr; lra|lra|apply sqrt_pos]).
  assert (S2 : (sqrt 2 < 1.42)%R) by (apply Rsqr_incrst_0; [rewrite Rsqr_sqrt by lra; unfold Rsqr; lra|apply sqrt_pos|lra]).
  unfold getLength. cbn [b_p0 b_p1]. rewrite V, Q. split; [reflexivity|]. unfold around. rewrite powerRZ_1.
  replace (ZnearestE (sqrt 2 * 10)) with 14%Z; [reflexivity|]. symmetry. apply Znearest_imp. apply Rabs_def1; lra.
Qed.
