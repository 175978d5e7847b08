(** Corners and edges of convex regions, carried over by a linear chart; the unit
    interval, square, hexagon and cube. *)
From Coq Require Import List Reals ZArith Bool Arith Lra Lia Psatz.
From Verif Require Import Lattice_Model Lattice_Spec Lattice_Proofs Reciprocal_Spec.
Import ListNotations.
Open Scope R_scope.
Ltac slra := intros; repeat match goal with H : _ /\ _ |- _ => destruct H end; repeat split; lra.

Lemma in_space_add d u v : in_space d u -> in_space d v -> in_space d (vadd u v).
Proof. destruct u as [[x y] z], v as [[x' y'] z'], d as [|[|[|d]]]; cbn; intros; slra. Qed.
Lemma in_space_scale d c u : in_space d u -> in_space d (vscale c u).
Proof. destruct u as [[x y] z], d as [|[|[|d]]]; cbn; intros; repeat split; try tauto; repeat match goal with H : _ /\ _ |- _ => destruct H end; subst; ring. Qed.

Section Chart.
  Variables (d : nat) (P : point -> point) (Z H : point -> Prop).
  Hypothesis Padd : forall u v, P (vadd u v) = vadd (P u) (P v).
  Hypothesis Pscale : forall c u, P (vscale c u) = vscale c (P u).
  Hypothesis Pinj : forall u v, in_space d u -> in_space d v -> P u = P v -> u = v.
  Hypothesis Hin : forall u, H u -> in_space d u.
  Hypothesis cover : forall k, Z k <-> exists u, H u /\ k = P u.
  Local Lemma chart_middle u p q : in_space d u -> in_space d p -> in_space d q -> middle (P u) (P p) (P q) <-> middle u p q.
  Proof.
    intros Hu Hp Hq. unfold middle. rewrite <- Padd, <- Pscale. split; [|now intros ->]. apply Pinj; [exact Hu|]. now apply in_space_scale, in_space_add.
  Qed.
  Local Lemma chart_segment c c' p : in_space d c -> in_space d c' -> in_space d p -> on_segment (P c) (P c') (P p) <-> on_segment c c' p.
  Proof.
    intros Hc Hc' Hp. unfold on_segment. split; intros (t & Ht & E); exists t; (split; [exact Ht|]); rewrite <- ?Pscale, <- ?Padd in *; [|now rewrite E, Padd, !Pscale].
    apply Pinj; [exact Hp| |exact E]. apply in_space_add; now apply in_space_scale.
  Qed.
  Lemma chart_corner u : in_space d u -> corner Z (P u) <-> corner H u.
  Proof.
    intros Hu. split; intros [Z0 K].
    - apply cover in Z0 as (u' & Hu' & E). apply Pinj in E; [|exact Hu|now apply Hin]. subst u'. split; [exact Hu'|]. intros p q Hp Hq M.
      destruct (K (P p) (P q)) as [E1 E2]; [apply cover; eauto|apply cover; eauto|apply chart_middle; auto|]. split; apply Pinj; auto.
    - split; [apply cover; eauto|]. intros p q Hp Hq M. apply cover in Hp as (p' & Hp & ->), Hq as (q' & Hq & ->). rewrite chart_middle in M by auto. destruct (K p' q') as [-> ->]; auto.
  Qed.
  Lemma chart_edge u : in_space d u -> edge_middle Z (P u) <-> edge_middle H u.
  Proof.
    intros Hu. split.
    - intros (c & c' & Kc & Kc' & N & M & K). pose proof Kc as [Zc _]. pose proof Kc' as [Zc' _]. apply cover in Zc as (a & Ha & ->), Zc' as (a' & Ha' & ->). rewrite chart_corner in Kc, Kc' by auto.
      exists a, a'. split; [exact Kc|]. split; [exact Kc'|]. split; [congruence|]. split; [rewrite chart_middle in M by auto; exact M|]. intros p q Hp Hq Mp.
      apply chart_segment; auto. apply (K (P p) (P q)); [apply cover; eauto|apply cover; eauto|apply chart_middle; auto].
    - intros (a & a' & Ka & Ka' & N & M & K). pose proof Ka as [Ha _]. pose proof Ka' as [Ha' _]. exists (P a), (P a'). split; [apply chart_corner; auto|]. split; [apply chart_corner; auto|].
      split; [intros E; apply Pinj in E; auto|]. split; [apply chart_middle; auto|]. intros p q Hp Hq Mp. apply cover in Hp as (p' & Hp & ->), Hq as (q' & Hq & ->). rewrite chart_middle in Mp by auto.
      apply chart_segment; auto. apply (K p' q'); auto.
  Qed.
  Lemma chart_lists (A B : point -> Prop) l l' : (forall u, in_space d u -> A (P u) <-> B u) -> (forall k, A k -> exists u, in_space d u /\ k = P u) -> (forall u, B u -> in_space d u) ->
    l = map P l' -> lists B l' -> lists A l.
  Proof.
    intros AB Ain Bin -> [N K]. split.
    - assert (L : forall u, In u l' -> in_space d u) by (intros u Hu; now apply Bin, K). clear K. induction N as [|x r Hx N IH]; cbn; constructor.
      + intros C. apply in_map_iff in C as (y & E & Hy). apply Pinj in E; [subst; contradiction| |]; apply L; cbn; auto.
      + apply IH. intros u Hu. apply L. now right.
    - intros k. rewrite in_map_iff. split.
      + intros Hk. destruct (Ain k Hk) as (u & Hu & ->). exists u. split; [reflexivity|]. now apply K, AB.
      + intros (u & <- & Hu). apply AB; [now apply Bin, K|now apply K].
  Qed.
  Lemma corner_space k : corner H k -> in_space d k. Proof. intros [Hk _]. now apply Hin. Qed.
  Lemma edge_space k : edge_middle H k -> in_space d k.
  Proof. intros (c & c' & [Hc _] & [Hc' _] & _ & -> & _). apply in_space_scale, in_space_add; now apply Hin. Qed.
  Lemma corners_listed l l' : l = map P l' -> lists (corner H) l' -> lists (corner Z) l.
  Proof.
    apply chart_lists.
    - intros u Hu. now apply chart_corner.
    - intros k [Zk _]. apply cover in Zk as (u & Hu & ->). exists u. auto.
    - apply corner_space.
  Qed.
  Lemma edges_listed l l' : l = map P l' -> lists (edge_middle H) l' -> lists (edge_middle Z) l.
  Proof.
    apply chart_lists.
    - intros u Hu. now apply chart_edge.
    - intros k (c & c' & [Zc _] & [Zc' _] & _ & M & _). apply cover in Zc as (u & Hu & ->), Zc' as (u' & Hu' & ->). exists (vscale (1 / 2) (vadd u u')). split; [apply in_space_scale, in_space_add; auto|].
      rewrite M. now rewrite Pscale, Padd.
    - apply edge_space.
  Qed.
End Chart.

(** ** the unit regions *)
Definition bounded (x : R) : Prop := -1 <= x <= 1.
Definition interval (u : point) : Prop := let '(x, y, z) := u in bounded x /\ y = 0 /\ z = 0.
Definition box2 (u : point) : Prop := let '(x, y, z) := u in bounded x /\ bounded y /\ z = 0.
Definition hexagon (u : point) : Prop := let '(x, y, z) := u in bounded x /\ bounded y /\ bounded (x + y) /\ z = 0.
Definition box3 (u : point) : Prop := let '(x, y, z) := u in bounded x /\ bounded y /\ bounded z.

Lemma middle_eq x y z p1 p2 p3 q1 q2 q3 : middle (x, y, z) (p1, p2, p3) (q1, q2, q3) <-> 2 * x = p1 + q1 /\ 2 * y = p2 + q2 /\ 2 * z = p3 + q3.
Proof.
  unfold middle. cbn [vscale vadd]. split.
  - intros E. injection E as -> -> ->. repeat split; field.
  - intros (A & B & C). apply p3_eq; slra.
Qed.
Lemma point_inj (x y z x' y' z' : R) : (x, y, z) = (x', y', z') <-> x = x' /\ y = y' /\ z = z'.
Proof. split; [intros E; injection E; auto|intros (-> & -> & ->); reflexivity]. Qed.
Lemma push_lt x : -1 < x < 1 -> exists e, 0 < e /\ bounded (x + e) /\ bounded (x - e).
Proof.
  intros H. exists (Rmin (1 - x) (x + 1)). pose proof (Rmin_l (1 - x) (x + 1)). pose proof (Rmin_r (1 - x) (x + 1)). unfold bounded.
  assert (0 < Rmin (1 - x) (x + 1)) by (apply Rmin_glb_lt; slra). slra.
Qed.
Lemma push2 x y : -1 < x < 1 -> -1 < y < 1 -> exists e, 0 < e /\ bounded (x + e) /\ bounded (x - e) /\ bounded (y + e) /\ bounded (y - e).
Proof.
  intros Hx Hy. destruct (push_lt x Hx) as (e & E & E1 & E2). destruct (push_lt y Hy) as (f & F & F1 & F2). unfold bounded in *.
  exists (Rmin e f). pose proof (Rmin_l e f). pose proof (Rmin_r e f). assert (0 < Rmin e f) by (apply Rmin_glb_lt; slra). slra.
Qed.
Lemma tight x : bounded x -> x = 1 \/ x = -1 \/ -1 < x < 1.
Proof. unfold bounded. intros H. destruct (Req_dec x 1), (Req_dec x (-1)); auto. right. right. slra. Qed.

Ltac pt_nodup := repeat constructor; cbn; intros C; repeat destruct C as [C|C]; try contradiction; apply point_inj in C; slra.
Lemma interval_corners : lists (corner interval) [(-1, 0, 0); (1, 0, 0)].
Proof.
  split; [pt_nodup|]. intros [[x y] z]. split.
  - intros [(Bx & -> & ->) K]. destruct (tight x Bx) as [-> |[-> |T]]; cbn; auto. exfalso. destruct (push_lt x T) as (e & E & E1 & E2).
    destruct (K (x + e, 0, 0) (x - e, 0, 0)) as [C _]; [cbn; auto|cbn; auto|apply middle_eq; slra|]. apply point_inj in C. slra.
  - intros [E|[E|[]]]; apply point_inj in E as (<- & <- & <-); (split; [cbn; unfold bounded; slra|]); intros [[p1 p2] p3] [[q1 q2] q3]; cbn; unfold bounded; rewrite middle_eq, !point_inj; slra.
Qed.
Ltac corner_back := split; [cbn; unfold bounded; slra|]; intros [[p1 p2] p3] [[q1 q2] q3]; cbn; unfold bounded; rewrite middle_eq, !point_inj; slra.
Lemma box2_corners : lists (corner box2) [(-1, -1, 0); (-1, 1, 0); (1, 1, 0); (1, -1, 0)].
Proof.
  split; [pt_nodup|]. intros [[x y] z]. split.
  - intros [(Bx & By & ->) K].
    assert (Tx : x = 1 \/ x = -1).
    { destruct (tight x Bx) as [|[|T]]; auto. exfalso. destruct (push_lt x T) as (e & E & E1 & E2). destruct (K (x + e, y, 0) (x - e, y, 0)) as [C _]; [cbn; auto|cbn; auto|apply middle_eq; slra|]. apply point_inj in C. slra. }
    assert (Ty : y = 1 \/ y = -1).
    { destruct (tight y By) as [|[|T]]; auto. exfalso. destruct (push_lt y T) as (e & E & E1 & E2). destruct (K (x, y + e, 0) (x, y - e, 0)) as [C _]; [cbn; auto|cbn; auto|apply middle_eq; slra|]. apply point_inj in C. slra. }
    destruct Tx as [-> | ->], Ty as [-> | ->]; cbn; auto.
  - intros C. cbn in C. repeat destruct C as [C|C]; try contradiction; apply point_inj in C as (<- & <- & <-); corner_back.
Qed.
Lemma box3_corners : lists (corner box3) [(-1, -1, -1); (-1, 1, -1); (1, 1, -1); (1, -1, -1); (-1, -1, 1); (-1, 1, 1); (1, 1, 1); (1, -1, 1)].
Proof.
  split; [pt_nodup|]. intros [[x y] z]. split.
  - intros [(Bx & By & Bz) K].
    assert (Tx : x = 1 \/ x = -1).
    { destruct (tight x Bx) as [|[|T]]; auto. exfalso. destruct (push_lt x T) as (e & E & E1 & E2). destruct (K (x + e, y, z) (x - e, y, z)) as [C _]; [cbn; auto|cbn; auto|apply middle_eq; slra|]. apply point_inj in C. slra. }
    assert (Ty : y = 1 \/ y = -1).
    { destruct (tight y By) as [|[|T]]; auto. exfalso. destruct (push_lt y T) as (e & E & E1 & E2). destruct (K (x, y + e, z) (x, y - e, z)) as [C _]; [cbn; auto|cbn; auto|apply middle_eq; slra|]. apply point_inj in C. slra. }
    assert (Tz : z = 1 \/ z = -1).
    { destruct (tight z Bz) as [|[|T]]; auto. exfalso. destruct (push_lt z T) as (e & E & E1 & E2). destruct (K (x, y, z + e) (x, y, z - e)) as [C _]; [cbn; auto|cbn; auto|apply middle_eq; slra|]. apply point_inj in C. slra. }
    destruct Tx as [-> | ->], Ty as [-> | ->], Tz as [-> | ->]; cbn; auto 10.
  - intros C. cbn in C. repeat destruct C as [C|C]; try contradiction; apply point_inj in C as (<- & <- & <-); corner_back.
Qed.
Lemma hexagon_corners : lists (corner hexagon) [(1, -1, 0); (0, -1, 0); (-1, 0, 0); (-1, 1, 0); (0, 1, 0); (1, 0, 0)].
Proof.
  split; [pt_nodup|]. intros [[x y] z]. split.
  - intros [(Bx & By & Bs & ->) K].
    assert (A : ~ (-1 < x < 1 /\ -1 < y < 1)).
    { intros [T1 T2]. assert (T2' : -1 < - y < 1) by slra. destruct (push2 x (- y) T1 T2') as (e & E & E1 & E2 & E3 & E4). unfold bounded in *.
      destruct (K (x + e, y - e, 0) (x - e, y + e, 0)) as [C _]; [cbn; unfold bounded; slra|cbn; unfold bounded; slra|apply middle_eq; slra|]. apply point_inj in C. slra. }
    assert (B : ~ (-1 < x < 1 /\ -1 < x + y < 1)).
    { intros [T1 T2]. destruct (push2 x (x + y) T1 T2) as (e & E & E1 & E2 & E3 & E4). unfold bounded in *.
      destruct (K (x + e, y, 0) (x - e, y, 0)) as [C _]; [cbn; unfold bounded; slra|cbn; unfold bounded; slra|apply middle_eq; slra|]. apply point_inj in C. slra. }
    assert (D : ~ (-1 < y < 1 /\ -1 < x + y < 1)).
    { intros [T1 T2]. destruct (push2 y (x + y) T1 T2) as (e & E & E1 & E2 & E3 & E4). unfold bounded in *.
      destruct (K (x, y + e, 0) (x, y - e, 0)) as [C _]; [cbn; unfold bounded; slra|cbn; unfold bounded; slra|apply middle_eq; slra|]. apply point_inj in C. slra. }
    destruct (tight x Bx) as [Tx|[Tx|Tx]], (tight y By) as [Ty|[Ty|Ty]], (tight (x + y) Bs) as [Ts|[Ts|Ts]]; try (exfalso; tauto); try (exfalso; slra);
      (assert (Ex : x = 1 \/ x = -1 \/ x = 0) by slra); (assert (Ey : y = 1 \/ y = -1 \/ y = 0) by slra);
      destruct Ex as [Ex|[Ex|Ex]], Ey as [Ey|[Ey|Ey]]; try (exfalso; slra); rewrite Ex, Ey; cbn; auto 8.
  - intros C. cbn in C. repeat destruct C as [C|C]; try contradiction; apply point_inj in C as (<- & <- & <-); corner_back.
Qed.

(** ** edges *)
Lemma not_edge (Z : point -> Prop) c c' p q k : Z p -> Z q -> middle k p q -> (forall t, 0 <= t <= 1 -> p <> vadd (vscale (1 - t) c) (vscale t c')) ->
  ~ (forall p q, Z p -> Z q -> middle k p q -> on_segment c c' p).
Proof. intros Hp Hq M N K. destruct (K p q Hp Hq M) as (t & Ht & E). exact (N t Ht E). Qed.
Lemma segment_eq c1 c2 c3 d1 d2 d3 p1 p2 p3 : on_segment (c1, c2, c3) (d1, d2, d3) (p1, p2, p3) <-> exists t, 0 <= t <= 1 /\ p1 = (1 - t) * c1 + t * d1 /\ p2 = (1 - t) * c2 + t * d2 /\ p3 = (1 - t) * c3 + t * d3.
Proof. unfold on_segment. cbn [vadd vscale]. split; intros (t & Ht & E); exists t; rewrite point_inj in *; auto. Qed.
Lemma edge_intro (Z : point -> Prop) c c' k : corner Z c -> corner Z c' -> c <> c' -> middle k c c' -> (forall p q, Z p -> Z q -> middle k p q -> on_segment c c' p) -> edge_middle Z k.
Proof. intros. exists c, c'. auto. Qed.
Ltac an_edge Cs H c c' f := apply (edge_intro H c c'); [apply Cs; cbn; auto 10|apply Cs; cbn; auto 10|rewrite point_inj; lra|apply middle_eq; slra|];
  intros [[p1 p2] p3] [[q1 q2] q3] A B M; rewrite middle_eq in M; cbn in A, B; unfold bounded in *; apply segment_eq; exists (f p1 p2 p3); slra.
Ltac no_edge K p q := exfalso; destruct (K p q) as (t & Ht & E); [cbn; unfold bounded; slra|cbn; unfold bounded; slra|apply middle_eq; slra|cbn in E; apply point_inj in E; lra].
Lemma box2_edges : lists (edge_middle box2) [(0, -1, 0); (-1, 0, 0); (0, 1, 0); (1, 0, 0)].
Proof.
  split; [pt_nodup|]. destruct box2_corners as [_ Cs]. intros k. split.
  - intros (c & c' & Kc & Kc' & N & M & K). rewrite Cs in Kc, Kc'. cbn [In] in Kc, Kc'. destruct k as [[x y] z].
    repeat destruct Kc as [Kc|Kc]; try contradiction; subst c; repeat destruct Kc' as [Kc'|Kc']; try contradiction; subst c'; try (now elim N); rewrite middle_eq in M.
    + replace (x, y, z) with (-1, 0, 0) by (apply point_inj; slra). cbn; auto 15.
    + no_edge K (1, 0, 0) (-1, 0, 0).
    + replace (x, y, z) with (0, -1, 0) by (apply point_inj; slra). cbn; auto 15.
    + replace (x, y, z) with (-1, 0, 0) by (apply point_inj; slra). cbn; auto 15.
    + replace (x, y, z) with (0, 1, 0) by (apply point_inj; slra). cbn; auto 15.
    + no_edge K (1, 0, 0) (-1, 0, 0).
    + no_edge K (1, 0, 0) (-1, 0, 0).
    + replace (x, y, z) with (0, 1, 0) by (apply point_inj; slra). cbn; auto 15.
    + replace (x, y, z) with (1, 0, 0) by (apply point_inj; slra). cbn; auto 15.
    + replace (x, y, z) with (0, -1, 0) by (apply point_inj; slra). cbn; auto 15.
    + no_edge K (1, 0, 0) (-1, 0, 0).
    + replace (x, y, z) with (1, 0, 0) by (apply point_inj; slra). cbn; auto 15.
  - intros C. cbn [In] in C. repeat destruct C as [C|C]; try contradiction; subst k.
    + an_edge Cs box2 (-1, -1, 0) (1, -1, 0) (fun p1 p2 p3 : R => (p1 - (-1)) / (2)).
    + an_edge Cs box2 (-1, -1, 0) (-1, 1, 0) (fun p1 p2 p3 : R => (p2 - (-1)) / (2)).
    + an_edge Cs box2 (-1, 1, 0) (1, 1, 0) (fun p1 p2 p3 : R => (p1 - (-1)) / (2)).
    + an_edge Cs box2 (1, 1, 0) (1, -1, 0) (fun p1 p2 p3 : R => (p2 - (1)) / (-2)).
Qed.
Lemma hexagon_edges : lists (edge_middle hexagon) [(1 / 2, -1, 0); (-1 / 2, -1 / 2, 0); (-1, 1 / 2, 0); (-1 / 2, 1, 0); (1 / 2, 1 / 2, 0); (1, -1 / 2, 0)].
Proof.
  split; [pt_nodup|]. destruct hexagon_corners as [_ Cs]. intros k. split.
  - intros (c & c' & Kc & Kc' & N & M & K). rewrite Cs in Kc, Kc'. cbn [In] in Kc, Kc'. destruct k as [[x y] z].
    repeat destruct Kc as [Kc|Kc]; try contradiction; subst c; repeat destruct Kc' as [Kc'|Kc']; try contradiction; subst c'; try (now elim N); rewrite middle_eq in M.
    + replace (x, y, z) with (1 / 2, -1, 0) by (apply point_inj; slra). cbn; auto 15.
    + no_edge K (0, -1, 0) (0, 0, 0).
    + no_edge K (1, -1 / 2, 0) (-1, 1 / 2, 0).
    + no_edge K (1, 0, 0) (0, 0, 0).
    + replace (x, y, z) with (1, -1 / 2, 0) by (apply point_inj; slra). cbn; auto 15.
    + replace (x, y, z) with (1 / 2, -1, 0) by (apply point_inj; slra). cbn; auto 15.
    + replace (x, y, z) with (-1 / 2, -1 / 2, 0) by (apply point_inj; slra). cbn; auto 15.
    + no_edge K (-1, 0, 0) (0, 0, 0).
    + no_edge K (1, -1 / 2, 0) (-1, 1 / 2, 0).
    + no_edge K (1, -1, 0) (0, 0, 0).
    + no_edge K (0, -1, 0) (0, 0, 0).
    + replace (x, y, z) with (-1 / 2, -1 / 2, 0) by (apply point_inj; slra). cbn; auto 15.
    + replace (x, y, z) with (-1, 1 / 2, 0) by (apply point_inj; slra). cbn; auto 15.
    + no_edge K (-1, 1, 0) (0, 0, 0).
    + no_edge K (1, -1 / 2, 0) (-1, 1 / 2, 0).
    + no_edge K (1, -1 / 2, 0) (-1, 1 / 2, 0).
    + no_edge K (-1, 0, 0) (0, 0, 0).
    + replace (x, y, z) with (-1, 1 / 2, 0) by (apply point_inj; slra). cbn; auto 15.
    + replace (x, y, z) with (-1 / 2, 1, 0) by (apply point_inj; slra). cbn; auto 15.
    + no_edge K (0, 1, 0) (0, 0, 0).
    + no_edge K (1, 0, 0) (0, 0, 0).
    + no_edge K (1, -1 / 2, 0) (-1, 1 / 2, 0).
    + no_edge K (-1, 1, 0) (0, 0, 0).
    + replace (x, y, z) with (-1 / 2, 1, 0) by (apply point_inj; slra). cbn; auto 15.
    + replace (x, y, z) with (1 / 2, 1 / 2, 0) by (apply point_inj; slra). cbn; auto 15.
    + replace (x, y, z) with (1, -1 / 2, 0) by (apply point_inj; slra). cbn; auto 15.
    + no_edge K (1, -1, 0) (0, 0, 0).
    + no_edge K (1, -1 / 2, 0) (-1, 1 / 2, 0).
    + no_edge K (0, 1, 0) (0, 0, 0).
    + replace (x, y, z) with (1 / 2, 1 / 2, 0) by (apply point_inj; slra). cbn; auto 15.
  - intros C. cbn [In] in C. repeat destruct C as [C|C]; try contradiction; subst k.
    + an_edge Cs hexagon (1, -1, 0) (0, -1, 0) (fun p1 p2 p3 : R => (p1 - (1)) / (-1)).
    + an_edge Cs hexagon (0, -1, 0) (-1, 0, 0) (fun p1 p2 p3 : R => (p1 - (0)) / (-1)).
    + an_edge Cs hexagon (-1, 0, 0) (-1, 1, 0) (fun p1 p2 p3 : R => (p2 - (0)) / (1)).
    + an_edge Cs hexagon (-1, 1, 0) (0, 1, 0) (fun p1 p2 p3 : R => (p1 - (-1)) / (1)).
    + an_edge Cs hexagon (0, 1, 0) (1, 0, 0) (fun p1 p2 p3 : R => (p1 - (0)) / (1)).
    + an_edge Cs hexagon (1, -1, 0) (1, 0, 0) (fun p1 p2 p3 : R => (p2 - (-1)) / (1)).
Qed.
Lemma box3_edges : lists (edge_middle box3) [(-1, -1, 0); (-1, 1, 0); (1, 1, 0); (1, -1, 0); (-1, 0, -1); (-1, 0, 1); (1, 0, 1); (1, 0, -1); (0, -1, -1); (0, -1, 1); (0, 1, 1); (0, 1, -1)].
Proof.
  split; [pt_nodup|]. destruct box3_corners as [_ Cs]. intros k. split.
  - intros (c & c' & Kc & Kc' & N & M & K). rewrite Cs in Kc, Kc'. cbn [In] in Kc, Kc'. destruct k as [[x y] z].
    repeat destruct Kc as [Kc|Kc]; try contradiction; subst c; repeat destruct Kc' as [Kc'|Kc']; try contradiction; subst c'; try (now elim N); rewrite middle_eq in M.
    + replace (x, y, z) with (-1, 0, -1) by (apply point_inj; slra). cbn; auto 15.
    + no_edge K (1, 0, -1) (-1, 0, -1).
    + replace (x, y, z) with (0, -1, -1) by (apply point_inj; slra). cbn; auto 15.
    + replace (x, y, z) with (-1, -1, 0) by (apply point_inj; slra). cbn; auto 15.
    + no_edge K (-1, 1, 0) (-1, -1, 0).
    + no_edge K (1, 0, 0) (-1, 0, 0).
    + no_edge K (1, -1, 0) (-1, -1, 0).
    + replace (x, y, z) with (-1, 0, -1) by (apply point_inj; slra). cbn; auto 15.
    + replace (x, y, z) with (0, 1, -1) by (apply point_inj; slra). cbn; auto 15.
    + no_edge K (1, 0, -1) (-1, 0, -1).
    + no_edge K (-1, 1, 0) (-1, -1, 0).
    + replace (x, y, z) with (-1, 1, 0) by (apply point_inj; slra). cbn; auto 15.
    + no_edge K (1, 1, 0) (-1, 1, 0).
    + no_edge K (1, 0, 0) (-1, 0, 0).
    + no_edge K (1, 0, -1) (-1, 0, -1).
    + replace (x, y, z) with (0, 1, -1) by (apply point_inj; slra). cbn; auto 15.
    + replace (x, y, z) with (1, 0, -1) by (apply point_inj; slra). cbn; auto 15.
    + no_edge K (1, 0, 0) (-1, 0, 0).
    + no_edge K (1, 1, 0) (-1, 1, 0).
    + replace (x, y, z) with (1, 1, 0) by (apply point_inj; slra). cbn; auto 15.
    + no_edge K (1, 1, 0) (1, -1, 0).
    + replace (x, y, z) with (0, -1, -1) by (apply point_inj; slra). cbn; auto 15.
    + no_edge K (1, 0, -1) (-1, 0, -1).
    + replace (x, y, z) with (1, 0, -1) by (apply point_inj; slra). cbn; auto 15.
    + no_edge K (1, -1, 0) (-1, -1, 0).
    + no_edge K (1, 0, 0) (-1, 0, 0).
    + no_edge K (1, 1, 0) (1, -1, 0).
    + replace (x, y, z) with (1, -1, 0) by (apply point_inj; slra). cbn; auto 15.
    + replace (x, y, z) with (-1, -1, 0) by (apply point_inj; slra). cbn; auto 15.
    + no_edge K (-1, 1, 0) (-1, -1, 0).
    + no_edge K (1, 0, 0) (-1, 0, 0).
    + no_edge K (1, -1, 0) (-1, -1, 0).
    + replace (x, y, z) with (-1, 0, 1) by (apply point_inj; slra). cbn; auto 15.
    + no_edge K (1, 0, 1) (-1, 0, 1).
    + replace (x, y, z) with (0, -1, 1) by (apply point_inj; slra). cbn; auto 15.
    + no_edge K (-1, 1, 0) (-1, -1, 0).
    + replace (x, y, z) with (-1, 1, 0) by (apply point_inj; slra). cbn; auto 15.
    + no_edge K (1, 1, 0) (-1, 1, 0).
    + no_edge K (1, 0, 0) (-1, 0, 0).
    + replace (x, y, z) with (-1, 0, 1) by (apply point_inj; slra). cbn; auto 15.
    + replace (x, y, z) with (0, 1, 1) by (apply point_inj; slra). cbn; auto 15.
    + no_edge K (1, 0, 1) (-1, 0, 1).
    + no_edge K (1, 0, 0) (-1, 0, 0).
    + no_edge K (1, 1, 0) (-1, 1, 0).
    + replace (x, y, z) with (1, 1, 0) by (apply point_inj; slra). cbn; auto 15.
    + no_edge K (1, 1, 0) (1, -1, 0).
    + no_edge K (1, 0, 1) (-1, 0, 1).
    + replace (x, y, z) with (0, 1, 1) by (apply point_inj; slra). cbn; auto 15.
    + replace (x, y, z) with (1, 0, 1) by (apply point_inj; slra). cbn; auto 15.
    + no_edge K (1, -1, 0) (-1, -1, 0).
    + no_edge K (1, 0, 0) (-1, 0, 0).
    + no_edge K (1, 1, 0) (1, -1, 0).
    + replace (x, y, z) with (1, -1, 0) by (apply point_inj; slra). cbn; auto 15.
    + replace (x, y, z) with (0, -1, 1) by (apply point_inj; slra). cbn; auto 15.
    + no_edge K (1, 0, 1) (-1, 0, 1).
    + replace (x, y, z) with (1, 0, 1) by (apply point_inj; slra). cbn; auto 15.
  - intros C. cbn [In] in C. repeat destruct C as [C|C]; try contradiction; subst k.
    + an_edge Cs box3 (-1, -1, -1) (-1, -1, 1) (fun p1 p2 p3 : R => (p3 - (-1)) / (2)).
    + an_edge Cs box3 (-1, 1, -1) (-1, 1, 1) (fun p1 p2 p3 : R => (p3 - (-1)) / (2)).
    + an_edge Cs box3 (1, 1, -1) (1, 1, 1) (fun p1 p2 p3 : R => (p3 - (-1)) / (2)).
    + an_edge Cs box3 (1, -1, -1) (1, -1, 1) (fun p1 p2 p3 : R => (p3 - (-1)) / (2)).
    + an_edge Cs box3 (-1, -1, -1) (-1, 1, -1) (fun p1 p2 p3 : R => (p2 - (-1)) / (2)).
    + an_edge Cs box3 (-1, -1, 1) (-1, 1, 1) (fun p1 p2 p3 : R => (p2 - (-1)) / (2)).
    + an_edge Cs box3 (1, 1, 1) (1, -1, 1) (fun p1 p2 p3 : R => (p2 - (1)) / (-2)).
    + an_edge Cs box3 (1, 1, -1) (1, -1, -1) (fun p1 p2 p3 : R => (p2 - (1)) / (-2)).
    + an_edge Cs box3 (-1, -1, -1) (1, -1, -1) (fun p1 p2 p3 : R => (p1 - (-1)) / (2)).
    + an_edge Cs box3 (-1, -1, 1) (1, -1, 1) (fun p1 p2 p3 : R => (p1 - (-1)) / (2)).
    + an_edge Cs box3 (-1, 1, 1) (1, 1, 1) (fun p1 p2 p3 : R => (p1 - (-1)) / (2)).
    + an_edge Cs box3 (-1, 1, -1) (1, 1, -1) (fun p1 p2 p3 : R => (p1 - (-1)) / (2)).
Qed.
