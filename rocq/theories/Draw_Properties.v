(** C53: tools/Draw2DLattice.py and tools/BrillouinZone.py. *)
From Coq Require Import String List Reals ZArith Bool Lia Lra.
From Verif Require Import Py Lattice_Model Lattice_Spec LatticeGen_Model Reciprocal_Spec Draw_Model Draw_Spec Draw_Proofs DrawZone_Proofs.
Import ListNotations.
Open Scope R_scope.

(** The sites drawn for a lattice: all members of the unit cells (a, b) with |a| <= num0
    and |b| <= num1, each once, listed cell by cell with b running faster. *)
Theorem C53_sites :
  forall which n num0 num1, named which n -> (0 <= num0)%Z -> (0 <= num1)%Z ->
  exists sites, sites_factory which num0 num1 = Ok sites /\
    List.length sites = (Z.to_nat ((2 * num0 + 1) * (2 * num1 + 1)) * members n)%nat /\
    NoDup sites /\
    (forall p, In p sites <-> exists a b j, drawn_cell num0 num1 a b /\ (j < members n)%nat /\ p = place n a b j) /\
    (forall a b j, drawn_cell num0 num1 a b -> (j < members n)%nat ->
       nth (Z.to_nat ((a + num0) * (2 * num1 + 1) + (b + num1)) * members n + j) sites v0 = place n a b j).
Proof.
  intros which n num0 num1 Hn H0 H1. exists (drawn n num0 num1).
  split; [rewrite (sites_named which n) by exact Hn; destruct (Z.ltb_spec num0 0); [lia|]; destruct (Z.ltb_spec num1 0); [lia|reflexivity]|].
  split; [now apply drawn_length|]. split; [now apply drawn_nodup|]. split; [apply in_drawn|]. intros a b j. apply drawn_nth.
Qed.
Print Assumptions C53_sites.

(** Unknown names are a KeyError, whatever the numbers; a negative number is a ValueError. *)
Theorem C53_sites_errors :
  (forall which num0 num1, (forall n, ~ named which n) -> sites_factory which num0 num1 = Err KeyError) /\
  (forall which n num0 num1, named which n -> (num0 < 0)%Z \/ (num1 < 0)%Z -> sites_factory which num0 num1 = Err ValueError) /\
  (forall which n n', named which n -> named which n' -> n = n').
Proof.
  split; [|split].
  - intros which num0 num1 H. unfold sites_factory. now rewrite unnamed_cell.
  - intros which n num0 num1 Hn H. rewrite (sites_named which n) by exact Hn. destruct (Z.ltb_spec num0 0); [reflexivity|]. destruct (Z.ltb_spec num1 0); [reflexivity|lia].
  - exact named_unique.
Qed.
Print Assumptions C53_sites_errors.

(** The bonds drawn: every two sites at the nearest-neighbour distance of the lattice,
    each pair once; with a single site there is no distance and a ValueError. *)
Theorem C53_bonds :
  forall which n num0 num1 sites, named which n -> sites_factory which num0 num1 = Ok sites ->
  ((2 <= List.length sites)%nat ->
   exists pairs, bonds_generator sites = Ok (map (fun ij => (nth (fst ij) sites v0, nth (snd ij) sites v0)) pairs) /\ NoDup pairs /\
     (forall i j, In (i, j) pairs <-> (i < j < List.length sites)%nat /\ dist (nth i sites v0) (nth j sites v0) = spacing n) /\
     (forall i j, (i < j < List.length sites)%nat -> spacing n <= dist (nth i sites v0) (nth j sites v0)) /\ pairs <> []) /\
  (List.length sites = 1%nat -> bonds_generator sites = Err ValueError) /\ (1 <= List.length sites)%nat.
Proof.
  intros which n num0 num1 sites Hn H. rewrite (sites_named which n) in H by exact Hn.
  destruct (Z.ltb_spec num0 0) as [|H0]; [discriminate|]. destruct (Z.ltb_spec num1 0) as [|H1]; [discriminate|]. cbn [orb] in H. injection H as <-. split; [|split].
  - intros L. destruct (bonds_drawn n num0 num1 H0 H1 L) as (pairs & E & N & P). exists pairs. split; [exact E|]. split; [exact N|]. split; [exact P|]. split.
    + intros i j Hij. now apply drawn_gap.
    + destruct (near_pair n num0 num1 H0 H1 L) as (i & j & Hij). apply P in Hij. intros ->. destruct Hij.
  - intros L. apply bonds_few. lia.
  - rewrite drawn_length by auto. assert (1 <= (2 * num0 + 1) * (2 * num1 + 1))%Z by nia. destruct n; cbn [members]; lia.
Qed.
Print Assumptions C53_bonds.

(** What [show] draws and where it saves the figure. *)
Theorem C53_show :
  (forall which n num0 num1 link save path name f, named which n -> show which num0 num1 link save path name = Ok f ->
     sites_factory which num0 num1 = Ok (f_sites f) /\
     (link = true -> exists b, bonds_generator (f_sites f) = Ok b /\ f_bonds f = Some b) /\ (link = false -> f_bonds f = None) /\
     (save = false -> f_file f = None) /\
     (save = true -> f_file f = Some (path ++ match name with Some s => s | None => file_of n end)%string)) /\
  (forall which num0 num1 link save path name, (forall n, ~ named which n) -> show which num0 num1 link save path name = Err KeyError) /\
  (forall which n num0 num1 save path name, named which n -> (0 <= num0)%Z -> (0 <= num1)%Z -> exists f, show which num0 num1 false save path name = Ok f).
Proof.
  split; [|split].
  - intros which n num0 num1 link save path name f Hn H. unfold show in H. destruct (sites_factory which num0 num1) as [sites|] eqn:Es; [|discriminate]. cbn [Py.bind] in H.
    assert (F : match name with Some s => s | None => default_name which end = match name with Some s => s | None => file_of n end).
    { destruct name; [reflexivity|]. destruct n; destruct Hn as [-> | ->]; reflexivity. }
    destruct link.
    + destruct (bonds_generator sites) as [b|] eqn:Eb; [|discriminate]. injection H as <-. cbn [f_sites f_bonds f_file]. split; [reflexivity|]. split; [intros _; now exists b|]. split; [discriminate|]. unfold saved_file. rewrite F. split; intros ->; reflexivity.
    + injection H as <-. cbn [f_sites f_bonds f_file]. split; [reflexivity|]. split; [discriminate|]. split; [reflexivity|]. unfold saved_file. rewrite F. split; intros ->; reflexivity.
  - intros which num0 num1 link save path name H. unfold show. now rewrite (proj1 C53_sites_errors).
  - intros which n num0 num1 save path name Hn H0 H1. destruct (C53_sites which n num0 num1 Hn H0 H1) as (s & E & _). unfold show. rewrite E. eexists. reflexivity.
Qed.
Print Assumptions C53_show.

(** BrillouinZone.py: its B vectors are dual to its A vectors; its K points are the corners
    and its M points the edge middles of the first Brillouin zone, each M halfway between
    two successive K points. *)
Theorem C53_zone :
  dual_to BZ_As BZ_Bs /\
  lists (corner (first_BZ 2 BZ_Bs)) BZ_Ks /\ lists (edge_middle (first_BZ 2 BZ_Bs)) BZ_Ms /\
  (forall i, (i < 6)%nat -> middle (nth i BZ_Ms v0) (nth i BZ_Ks v0) (nth (S i mod 6) BZ_Ks v0)) /\
  BZ_Gamma = v0.
Proof. split; [exact dual|]. split; [apply zone_listed|]. split; [apply zone_listed|]. split; [exact Ms_middle|reflexivity]. Qed.
Print Assumptions C53_zone.

(** The line drawn for a reciprocal-lattice point K is the part of the perpendicular bisector
    of the segment from 0 to K that is within |K| of its middle; one is drawn for each of the
    eight neighbours of 0, and together they cover the edges of the zone. *)
Theorem C53_bisectors :
  (forall K p, K <> v0 -> in_space 2 K ->
     (on_segment (fst (BZ_segment K)) (snd (BZ_segment K)) p <-> in_space 2 p /\ norm p = dist p K /\ dist p (vscale (1 / 2) K) <= norm K)) /\
  (forall g, In g BZ_segments <-> exists a b, (-1 <= a <= 1)%Z /\ (-1 <= b <= 1)%Z /\ (a, b) <> (0%Z, 0%Z) /\ g = BZ_segment (shift [a; b] BZ_Bs)) /\
  (forall i p, (i < 6)%nat -> on_segment (nth i BZ_Ks v0) (nth (S i mod 6) BZ_Ks v0) p -> exists g, In g BZ_segments /\ on_segment (fst g) (snd g) p).
Proof.
  split; [|split].
  - intros [[x y] z] p N H. apply segment_char; [exact N|exact H].
  - assert (E : forall a b, shift [a; b] BZ_Bs = comb [a; b] BZ_Bs) by reflexivity.
    intros g. rewrite segments_eq. split.
    + intros H. apply in_map_iff in H as (ns & <- & H). cbn [In] in H.
      repeat (destruct H as [<-|H]; [match goal with |- context [comb [?a; ?b] _] => exists a, b end; split; [lia|]; split; [lia|]; split; [congruence|reflexivity]|]). destruct H.
    + intros (a & b & Ha & Hb & N & ->). rewrite E. apply (in_map (fun ns => BZ_segment (comb ns BZ_Bs)) _ [a; b]).
      assert (A : (a = -1 \/ a = 0 \/ a = 1)%Z) by lia. assert (B : (b = -1 \/ b = 0 \/ b = 1)%Z) by lia.
      destruct A as [-> | [-> | ->]], B as [-> | [-> | ->]]; cbn; try tauto; congruence.
  - exact edges_drawn.
Qed.
Print Assumptions C53_bisectors.

(** Non-vacuity: the kagome lattice with one cell in each direction has 27 sites; its
    first two sites are nearest neighbours. *)
Example C53_met : named "k" Kagome /\ exists sites, sites_factory "k" 1 1 = Ok sites /\ List.length sites = 27%nat /\ (2 <= List.length sites)%nat.
Proof. split; [now left|]. destruct (C53_sites "k" Kagome 1 1) as (s & E & L & _); [now left|lia|lia|]. exists s. split; [exact E|]. rewrite L. cbn. lia. Qed.
Example C53_single : exists sites, sites_factory "square" 0 0 = Ok sites /\ List.length sites = 1%nat.
Proof. destruct (C53_sites "square" Square 0 0) as (s & E & L & _); [now right|lia|lia|]. exists s. split; [exact E|]. rewrite L. reflexivity. Qed.
