(** C61, continued: the exchange matrix of the nearest bonds of clusters of all six lattices. *)
From Coq Require Import Reals String List ZArith Bool Arith Lia Lra Permutation.
From Verif Require Import Py GQ Mat State_Model MatrixRepr_Model Particle_Model Spin_Model Spin_Spec
  Lattice_Model Lattice_Spec Lattice_Proofs Lattice_Properties LatticeGen_Model LatticeGen_Spec LatticeGen_Proofs LatticeGen_Properties
  Neighbors_Spec Neighbors_Properties LatticeBonds_Spec LatticeBonds_Properties LatticeNice_Properties LatticeNearest_Spec LatticeNearest2_Properties
  Bloch_Spec Bloch_Proofs Bloch_Proofs2 Bloch_Properties
  Heisenberg_Model Heisenberg_Spec Heisenberg_Proofs Heisenberg_Proofs2 Heisenberg_Proofs3 Heisenberg_Properties HeisenbergBonds_Spec HeisenbergBonds_Proofs HeisenbergBonds_Proofs2.
Import ListNotations.
Local Open Scope nat_scope.

(** Every lattice, every set P of bond lengths: if the bonds are listed as C36 describes, none
    missing, twice the matrix is J times the sum of S_i . S_j over all links from a point
    i to a translated point j (the bonds from both ends), plus J Sz_i for every link from a
    point to its own translation. *)
Theorem C61_bonds : forall nearest prec0 prec L J P intra inter T O,
  finds_nearest nearest -> lattice_of prec0 L -> separated (view prec) L -> gconj J = J ->
  lists_intra L P intra -> lists_inter L P false inter T -> (forall k, valid L k -> crossing k -> P (len L k) -> In k T \/ In (opposite k) T) ->
  (forall k, In k T -> (reach (by_ k) <= 1)%Z \/ reduced (3 / 4) (vectors L) \/ steady (vectors L) [v0]) ->
  all_links L P O -> O <> [] ->
  let n := length (points L) in
  exists F, forall fuel, (F <= fuel)%nat -> exists m, heisenberg_matrix L nearest fuel prec (Z.of_nat n) J intra inter = Some (Ok m) /\
    s_rows m = (2 ^ n)%nat /\ s_cols m = (2 ^ n)%nat /\
    meq (2 ^ n) (2 ^ n) (madd (s_ent m) (s_ent m)) (madd (exchange n J (map ends O)) (self_field n J (map ends O))) /\
    meq (2 ^ n) (2 ^ n) (mdag (s_ent m)) (s_ent m) /\
    ((forall k, In k O -> from k <> to k) ->
       meq (2 ^ n) (2 ^ n) (madd (s_ent m) (s_ent m)) (exchange n J (map ends O)) /\
       forall o, meq (2 ^ n) (2 ^ n) (comm (2 ^ n) (s_ent m) (total_spin n o)) mzero).
Proof.
  intros nearest prec0 prec L J P intra inter T O Hn HL Hs HJ LI LT AT HR (NO & HO) NE n.
  pose proof LI as (I0 & NI0 & II0 & PI0). pose proof LT as (NT & VT & PT).
  assert (NEb : (intra ++ inter)%list <> []).
  { intros X. apply app_eq_nil in X as [-> ->]. apply Permutation_nil in PI0, PT. apply map_eq_nil in PI0, PT. subst I0 T. destruct O as [|k O']; [now apply NE|].
    pose proof (both_perm L P [] [] NI0 II0 NT VT AT (k :: O') NO HO) as X. cbn in X. apply Permutation_nil in X. discriminate. }
  destruct (C61_matrix nearest prec0 prec L J P intra inter T Hn HL Hs HJ LI LT HR NEb) as (I & NI & II & F & HF). fold n in II, HF.
  exists F. intros fuel Hf. destruct (HF fuel Hf) as (m & E & (R1 & R2 & R3) & HH & HNS). exists m. split; [exact E|]. split; [exact R1|]. split; [exact R2|].
  assert (X : meq (2 ^ n) (2 ^ n) (madd (s_ent m) (s_ent m)) (madd (exchange n J (map ends O)) (self_field n J (map ends O)))).
  { intros r c Hr Hc. unfold madd at 1 2. rewrite (R3 r c Hr Hc). unfold madd. pose proof (both_exchange L P I T NI II NT VT AT J O r c NO HO Hr Hc) as A1. pose proof (both_self L P I T NI II NT VT AT J O r c NO HO) as A2. fold n in A1, A2. rewrite A1, A2. ring. }
  split; [exact X|]. split; [exact HH|]. intros NS.
  assert (TO : forall k, In k T -> from k <> to k).
  { intros k Hk. apply NS. apply (Permutation_in _ (both_perm L P I T NI II NT VT AT O NO HO)). unfold both. rewrite !in_app_iff. right. now left. }
  split; [|exact (proj2 (HNS TO))]. intros r c Hr Hc. rewrite (X r c Hr Hc). unfold madd. rewrite no_self; [ring|]. apply Forall_forall. intros p Hp. apply in_map_iff in Hp as (k & <- & Hk). cbn. now apply NS.
Qed.
Print Assumptions C61_bonds.

(** No site is its own nearest neighbour: the cluster has two or more cells in each direction,
    or the neighbours belong to another sublattice. *)
Definition roomy (name : string) (n0 n1 n2 : Z) : Prop :=
  In name ["honeycomb"; "kagome"]%string \/
  ((2 <= n0)%Z /\ (In name ["square"; "triangle"; "cubic"]%string -> (2 <= n1)%Z) /\ (name = "cubic"%string -> (2 <= n2)%Z)).

Lemma wrap_step n x y : (2 <= n)%Z -> (y = 1 \/ y = -1)%Z -> (0 <= x < n)%Z -> (x mod n <> (x + y) mod n)%Z.
Proof.
  intros H Hy Hx E. rewrite (Z.mod_small x n Hx) in E. destruct (Z.eq_dec (x + y) n) as [X|X]; [rewrite X, Z.mod_same in E by lia; lia|].
  destruct (Z.eq_dec (x + y) (-1)) as [Y|Y]; [replace (x + y)%Z with (n - 1 + -1 * n)%Z in E by lia; rewrite Z.mod_add, Z.mod_small in E by lia; lia|]. rewrite Z.mod_small in E by lia. lia.
Qed.
Lemma torus_no_self name c n0 n1 n2 : In (name, c) common_cells -> (1 <= n0)%Z -> (1 <= n1)%Z -> (1 <= n2)%Z -> roomy name n0 n1 n2 ->
  forall p, In p (torus_pairs name c (extents c n0 n1 n2)) -> fst p <> snd p.
Proof.
  intros Hn H0 H1 H2 Hr p Hp E. destruct (extents_ok name c n0 n1 n2 Hn H0 H1 H2) as [F Hl].
  unfold torus_pairs in Hp. apply in_flat_map in Hp as (ns & Hns & Hp). apply cells_box in Hns. apply in_flat_map in Hp as (a & Ha & Hp). apply in_seq in Ha. apply in_map_iff in Hp as ([b M] & <- & He). cbn [fst snd] in E.
  assert (SI : is_site c b M) by (apply (neighbour_sites name c Hn a b M) in He as (S & _); [exact S|lia]). destruct SI as [Hb HM].
  assert (LM : length (moved ns M) = length (extents c n0 n1 n2)) by (unfold moved; rewrite map_length, combine_length, (box_length _ _ Hns), Hl, HM; apply Nat.min_id).
  unfold number in E. pose proof (wrap_box _ ns F (box_length _ _ Hns)) as B1. pose proof (wrap_box _ (moved ns M) F LM) as B2.
  assert (AB : a = b /\ Z.to_nat (position (extents c n0 n1 n2) (wrap (extents c n0 n1 n2) ns)) = Z.to_nat (position (extents c n0 n1 n2) (wrap (extents c n0 n1 n2) (moved ns M)))).
  { revert E Ha Hb. generalize (Z.to_nat (position (extents c n0 n1 n2) (wrap (extents c n0 n1 n2) ns))), (Z.to_nat (position (extents c n0 n1 n2) (wrap (extents c n0 n1 n2) (moved ns M)))), (length (cpoints c)). clear. intros p p' q E Ha Hb.
    assert (a = b) by (pose proof (f_equal (fun x => x mod q) E) as X; cbv beta in X; rewrite !(Nat.add_comm (_ * q)), !Nat.mod_add, !Nat.mod_small in X by lia; exact X). subst b. split; [reflexivity|]. apply (Nat.mul_cancel_r p p' q); lia. }
  destruct AB as [<- EP].
  assert (W : wrap (extents c n0 n1 n2) ns = wrap (extents c n0 n1 n2) (moved ns M)).
  { rewrite <- (nth_mesh _ _ B1), <- (nth_mesh _ _ B2), EP. reflexivity. }
  clear EP E B1 B2 LM Hb Ha HM F Hl H0 H1 H2.
  cbn [common_cells In] in Hn. repeat destruct Hn as [Hn|Hn]; try contradiction; injection Hn as <- <-; unfold roomy in Hr; cbn [In] in Hr; unfold extents in *; cbn [cvectors chain_cell square_cell triangle_cell honeycomb_cell kagome_cell cubic_cell length firstn] in *;
    unfold nearest_sites in He; cbn [String.eqb Ascii.eqb Bool.eqb] in He.
  all: repeat match goal with H : box (_ :: _) _ |- _ => inversion H; clear H; subst | H : box [] _ |- _ => inversion H; clear H; subst | H : Forall2 _ (_ :: _) _ |- _ => inversion H; clear H; subst | H : Forall2 _ [] _ |- _ => inversion H; clear H; subst end.
  4-5: destruct a as [|[|a]]; cbn [In] in He; repeat destruct He as [He|He]; try contradiction; apply pair_equal_spec in He as [He _]; discriminate.
  all: destruct Hr as [[X|[X|[]]]|(R0 & R1 & R2)]; try discriminate; try specialize (R1 ltac:(tauto)); try specialize (R2 eq_refl);
    cbn [In] in He; repeat destruct He as [He|He]; try contradiction; apply pair_equal_spec in He as [_ <-]; unfold wrap, moved in W; cbn [combine map fst snd] in W; injection W as W; 
    first [eapply wrap_step; [exact R0| |eassumption|eassumption]; lia|eapply wrap_step; [exact R1| |eassumption|eassumption]; lia|eapply wrap_step; [exact R2| |eassumption|eassumption]; lia].
Qed.

(** All six lattices, clusters of every size, every real coupling, every history of calls: the
    bonds returned by bonds(nth=1) give the Heisenberg model with periodic boundary conditions:
    twice the matrix is J times the sum of S_i . S_j over all points i and all their nearest
    neighbours j - [coordination] of them for each point -, plus J Sz_i whenever a point is its
    own neighbour, which happens only if the cluster is one cell wide.  (For the honeycomb
    with a precision that rounds 1/sqrt 3 up, as the default does.) *)
Theorem C61_nearest : forall nearest prec name c n0 n1 n2 L dL ord pord d only J, finds_nearest nearest -> (1 <= prec)%nat ->
  In (name, c) common_cells -> (1 <= n0)%Z -> (1 <= n1)%Z -> (1 <= n2)%Z ->
  (name = "honeycomb"%string -> (/ sqrt 3 <= rounded prec (/ sqrt 3))%R) ->
  lattice_generator prec (Name name) (AnInt n0) (AnInt n1) (AnInt n2) = Ok (L, dL) ->
  listing ord -> listing pord -> reachable prec L ord dL d -> gconj J = J ->
  let n := length (points L) in
  let pairs := torus_pairs name c (firstn (length (cvectors c)) [n0; n1; n2]) in
  length pairs = (coordination name * n)%nat /\
  exists F, forall fuel, (F <= fuel)%nat -> exists intra inter,
    fst (bonds L ord pord fuel prec d (AnInt 1) only false) = Some (Ok (intra, Some inter)) /\
    exists F', forall fuel', (F' <= fuel')%nat -> exists HM,
      heisenberg_matrix L nearest fuel' prec (Z.of_nat n) J intra inter = Some (Ok HM) /\
      s_rows HM = (2 ^ n)%nat /\ s_cols HM = (2 ^ n)%nat /\
      meq (2 ^ n) (2 ^ n) (madd (s_ent HM) (s_ent HM)) (madd (exchange n J pairs) (self_field n J pairs)) /\
      meq (2 ^ n) (2 ^ n) (mdag (s_ent HM)) (s_ent HM) /\
      (roomy name n0 n1 n2 ->
         meq (2 ^ n) (2 ^ n) (madd (s_ent HM) (s_ent HM)) (exchange n J pairs) /\
         forall o, meq (2 ^ n) (2 ^ n) (comm (2 ^ n) (s_ent HM) (total_spin n o)) mzero).
Proof.
  intros nearest prec name c n0 n1 n2 L dL ord pord d only J Hne Hp Hn H0 H1 H2 Hh EL Ho Hpo Hr HJ n pairs.
  destruct (generated prec name c n0 n1 n2 L dL Hp Hn H0 H1 H2 EL) as (Lp & Lv & _ & SL). destruct (extents_ok name c n0 n1 n2 Hn H0 H1 H2) as [Fn Hl].
  destruct (C37_nice prec name c n0 n1 n2 L dL Hp Hn H0 H1 H2 EL) as (HL & [_ St] & _).
  pose proof (torus_all name c _ L Hn Fn Hl Lp Lv) as AL. pose proof (torus_size name c _ L Hn Fn Lp) as SZ. pose proof (torus_ends name c (extents c n0 n1 n2)) as TE. change (extents c n0 n1 n2) with (firstn (length (cvectors c)) [n0; n1; n2]) in TE at 2. fold pairs in TE.
  assert (NP : (1 <= n)%nat) by (pose proof (lattice_of_facts _ _ HL) as (_ & _ & _ & Q); unfold n; destruct (points L); [contradiction|cbn; lia]).
  split; [rewrite <- TE, map_length; exact SZ|].
  destruct (C37_nearest prec name c n0 n1 n2 L dL ord pord d only false Hp Hn H0 H1 H2 EL Ho Hpo Hr Hh) as (F & HF).
  exists F. intros fuel Hf. destruct (HF fuel Hf) as (intra & inter & T & EB & LI & LT & AT). exists intra, inter. split; [exact EB|].
  destruct (C61_bonds nearest prec prec L J (fun x => x = spacing name) intra inter T (torus_links name c (extents c n0 n1 n2)) Hne HL SL HJ LI LT AT (fun k _ => or_intror (or_intror St)) AL) as (F' & HF').
  { intros X. rewrite X in SZ. cbn [length] in SZ. fold n in SZ. assert (coordination name <> 0%nat) by (unfold coordination; repeat (destruct (String.eqb _ _); [lia|]); lia). nia. }
  exists F'. intros fuel' Hf'. destruct (HF' fuel' Hf') as (HM & E & R1 & R2 & R3 & R4 & R5). rewrite TE in R3, R5. exists HM. split; [exact E|]. split; [exact R1|]. split; [exact R2|]. split; [exact R3|]. split; [exact R4|].
  intros RM. apply R5. intros k Hk X. apply (torus_no_self name c n0 n1 n2 Hn H0 H1 H2 RM (ends k)); [|exact X]. change (extents c n0 n1 n2) with (firstn (length (cvectors c)) [n0; n1; n2]). fold pairs. rewrite <- TE. now apply in_map.
Qed.
Print Assumptions C61_nearest.

(** Non-vacuity: the neighbours in a square cluster of 2 x 2 cells and a honeycomb cluster of
    1 x 2 cells; a triangular cluster of 2 x 3 cells. *)
Example C61_nearest_pairs : torus_pairs "square" square_cell [2; 2]%Z =
  [(0, 2); (0, 2); (0, 1); (0, 1); (1, 3); (1, 3); (1, 0); (1, 0); (2, 0); (2, 0); (2, 3); (2, 3); (3, 1); (3, 1); (3, 2); (3, 2)].
Proof. reflexivity. Qed.
Example C61_nearest_pairs2 : torus_pairs "honeycomb" honeycomb_cell [1; 2]%Z =
  [(0, 1); (0, 3); (0, 3); (1, 0); (1, 2); (1, 2); (2, 3); (2, 1); (2, 1); (3, 2); (3, 0); (3, 0)].
Proof. reflexivity. Qed.
Example C61_nearest_case : roomy "triangle" 2 3 1 /\
  exists L dL, lattice_generator 4 (Name "triangle") (AnInt 2) (AnInt 3) (AnInt 1) = Ok (L, dL) /\ length (points L) = 6 /\
  forall nearest ord pord, finds_nearest nearest -> listing ord -> listing pord ->
  exists F, forall fuel, (F <= fuel)%nat -> exists intra inter,
    fst (bonds L ord pord fuel 4 dL (AnInt 1) true false) = Some (Ok (intra, Some inter)) /\
    exists F', forall fuel', (F' <= fuel')%nat -> exists HM,
      heisenberg_matrix L nearest fuel' 4 6 g1 intra inter = Some (Ok HM) /\
      forall o, meq 64 64 (comm 64 (s_ent HM) (total_spin 6 o)) mzero.
Proof.
  assert (RM : roomy "triangle" 2 3 1) by (right; cbn; repeat split; try lia; discriminate). split; [exact RM|].
  assert (Hn : In ("triangle"%string, triangle_cell) common_cells) by (cbn; tauto).
  destruct (C37_generator 4 "triangle" triangle_cell 2 3 1 ltac:(lia) Hn ltac:(lia) ltac:(lia) ltac:(lia)) as (L & dL & E & _ & _ & _ & _ & LP & _). exists L, dL. split; [exact E|]. split; [exact LP|].
  intros nearest ord pord Hne Ho Hpo.
  destruct (C61_nearest nearest 4 "triangle" triangle_cell 2 3 1 L dL ord pord dL true g1 Hne ltac:(lia) Hn ltac:(lia) ltac:(lia) ltac:(lia) ltac:(discriminate) E Ho Hpo (reach_init _ _ _ _) eq_refl) as (_ & F & HF).
  exists F. intros fuel Hf. destruct (HF fuel Hf) as (intra & inter & EB & F' & HF'). exists intra, inter. split; [exact EB|]. exists F'. intros fuel' Hf'. destruct (HF' fuel' Hf') as (HM & EH & _ & _ & _ & _ & R). rewrite LP in EH, R. exists HM. split; [exact EH|]. exact (proj2 (R RM)).
Qed.
