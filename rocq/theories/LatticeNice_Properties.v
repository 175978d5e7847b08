(** C34-C37: every cluster of lattice_generator satisfies the hypotheses of the
    theorems on decompose, neighbor_distance and bonds. *)
From Coq Require Import String List Reals ZArith Bool Arith Lra Lia Permutation.
From Verif Require Import Py CVec LinSolve Line2D_Model Line2D_Proofs Lattice_Model Lattice_Spec Lattice_Proofs Lattice_Proofs2 Lattice_Proofs3 Lattice_Properties LatticeCases_Properties
  Neighbors_Spec Neighbors_Proofs Neighbors_Proofs2 Neighbors_Properties LatticeBonds_Spec LatticeBonds_Properties LatticeGen_Model LatticeGen_Spec LatticeGen_Proofs LatticeGen_Properties LatticeHex_Proofs.
Import ListNotations.
Open Scope R_scope.

(** Whatever the shape of the cluster: its translated copies get farther layer by
    layer, and no combination of its translation vectors is shorter than half of
    its largest term. *)
Theorem C37_nice : forall prec s c n0 n1 n2 L d, (1 <= prec)%nat -> In (s, c) common_cells -> (1 <= n0)%Z -> (1 <= n1)%Z -> (1 <= n2)%Z ->
  lattice_generator prec (Name s) (AnInt n0) (AnInt n1) (AnInt n2) = Ok (L, d) -> lattice_of prec L /\ nice L /\ wide (vectors L) /\ exists a, In a (vectors L) /\ view prec <= norm a.
Proof.
  intros prec s c n0 n1 n2 L d Hpr H H0 H1 H2 E. destruct (C37_suitable prec s c n0 n1 n2 L d Hpr H H0 H1 H2 E) as (_ & Hres & Hc & Ort & _).
  destruct (extents_ok s c n0 n1 n2 H H0 H1 H2) as [F Hl]. pose proof (common_gridded s c H) as g.
  destruct (cluster_accepted prec c g _ Hpr F Hl) as (L' & d' & E' & E1 & E2 & E3 & HL). rewrite (generator_build prec s c) in E by auto. rewrite E' in E. injection E as -> ->.
  pose proof (lattice_of_facts _ _ HL) as (_ & _ & Hk & Hp).
  split; [exact HL|]. rewrite <- and_assoc. split.
  - assert (K : In s ["chain"; "square"; "cubic"]%string \/ In s ["triangle"; "honeycomb"; "kagome"]%string).
    { cbn [common_cells In] in H. repeat destruct H as [H|H]; try contradiction; injection H as <- _; cbn; tauto. }
    destruct K as [K|K]; [destruct (Ort K) as (N & _ & R); split; [exact N|now apply C35_wide]|].
    pose proof (common_hexagonal s c H K) as Hx. assert (En : extents c n0 n1 n2 = [n0; n1]) by (unfold extents; rewrite (proj1 Hx); reflexivity). rewrite En in *.
    split; [split|]; [now apply (hex_steady c n0 n1)|rewrite E3, (proj1 Hx); now apply hex_translations_steady|rewrite E3, (proj1 Hx); now apply hex_wide].
  - exists (nth 0 (vectors L) v0). split; [now apply nth_In|]. pose proof (resolved_vectors prec L 0 Hres Hp Hk) as V. pose proof (zoom_pos prec) as Z. pose proof (zoom_view prec) as ZV.
    apply (Rmult_le_reg_r (zoom prec)); [exact Z|lra].
Qed.
Print Assumptions C37_nice.

(** So decompose is complete on them: every site of the infinite lattice is split
    into its point of the cluster and its translation. *)
Theorem C37_decompose : forall prec s c n0 n1 n2 L d i ns, (1 <= prec)%nat -> In (s, c) common_cells -> (1 <= n0)%Z -> (1 <= n1)%Z -> (1 <= n2)%Z ->
  lattice_generator prec (Name s) (AnInt n0) (AnInt n1) (AnInt n2) = Ok (L, d) ->
  (i < List.length (points L))%nat -> List.length ns = List.length (vectors L) ->
  exists F, forall fuel, (F <= fuel)%nat ->
    decompose L fuel prec (Site (space_dim L) (vadd (nth i (points L) v0) (shift ns (vectors L)))) =
    Some (Ok (nth i (points L) v0, shift ns (vectors L))).
Proof.
  intros prec s c n0 n1 n2 L d i ns Hpr H H0 H1 H2 E Hi Ln. destruct (C37_nice prec s c n0 n1 n2 L d Hpr H H0 H1 H2 E) as (HL & [_ St] & _).
  destruct (C37_suitable prec s c n0 n1 n2 L d Hpr H H0 H1 H2 E) as (Sp & _). now apply (C34_steady prec).
Qed.
Print Assumptions C37_decompose.

(** neighbor_distance, on a freshly made cluster and for an n that the
    constructor did not tabulate, is the n-th distance of the infinite lattice. *)
Theorem C37_distances : forall prec s c n0 n1 n2 L d ord n, (1 <= prec)%nat -> In (s, c) common_cells -> (1 <= n0)%Z -> (1 <= n1)%Z -> (1 <= n2)%Z ->
  lattice_generator prec (Name s) (AnInt n0) (AnInt n1) (AnInt n2) = Ok (L, d) -> listing ord -> (List.length d <= n)%nat ->
  exists v d', neighbor_distance L ord prec d (AnInt (Z.of_nat n)) = (Ok v, d') /\ nth_distance prec L n v /\
    forall m, (m <= n)%nat -> exists u, neighbor_distance L ord prec d' (AnInt (Z.of_nat m)) = (Ok u, d') /\ nth_distance prec L m u.
Proof.
  intros prec s c n0 n1 n2 L d ord n Hpr H H0 H1 H2 E Ho Hd. destruct (C37_nice prec s c n0 n1 n2 L d Hpr H H0 H1 H2 E) as (HL & _ & W & _).
  destruct (C37_suitable prec s c n0 n1 n2 L d Hpr H H0 H1 H2 E) as (_ & Hres & Hc & _). now apply C35_recomputed.
Qed.
Print Assumptions C37_distances.

(** ... and bonds always answers, after every history. *)
Theorem C37_bonds : forall prec s c n0 n1 n2 L d0 ord pord d n only fold, (1 <= prec)%nat -> In (s, c) common_cells -> (1 <= n0)%Z -> (1 <= n1)%Z -> (1 <= n2)%Z ->
  lattice_generator prec (Name s) (AnInt n0) (AnInt n1) (AnInt n2) = Ok (L, d0) -> listing ord -> listing pord -> reachable prec L ord d0 d -> (1 <= n)%Z ->
  exists F, forall fuel, (F <= fuel)%nat -> exists intra inter, fst (bonds L ord pord fuel prec d (AnInt n) only fold) = Some (Ok (intra, Some inter)).
Proof.
  intros prec s c n0 n1 n2 L d0 ord pord d n only fold Hpr H H0 H1 H2 E Ho Hpo Hr Hn. destruct (C37_nice prec s c n0 n1 n2 L d0 Hpr H H0 H1 H2 E) as (HL & Ni & _ & V).
  destruct (C37_suitable prec s c n0 n1 n2 L d0 Hpr H H0 H1 H2 E) as (Sp & _). rewrite (generator_build prec s c) in E by auto. rewrite (fresh_of_constructor _ _ _ _ _ E) in Hr. now apply C36_total.
Qed.
Print Assumptions C37_bonds.
