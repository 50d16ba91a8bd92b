(** Which edges a sweep has open at a vertex, in terms of turns. *)
From Coq Require Import ZArith Reals Bool List Lia Lra Psatz Sorted.
From Verif Require Import Base F64 Coordinate Segment SpecGeom CoordinateFacts PolylineFacts Sweep SweepFacts AngleFacts.
Import ListNotations.
Local Open Scope Z_scope.

Lemma turn_det o a b : turn o a b = det (from o a) (from o b).
Proof. unfold turn, det, from. cbn [lon lat]. ring. Qed.
Lemma turn_self o a : turn o a a = 0. Proof. unfold turn. ring. Qed.
Lemma turn_o_l o a : turn o o a = 0. Proof. unfold turn. ring. Qed.
Lemma turn_o_r o a : turn o a o = 0. Proof. unfold turn. ring. Qed.
Lemma turn_swap o a b : turn o b a = - turn o a b. Proof. unfold turn. ring. Qed.
Lemma turn_cycle a b c : turn b c a = turn a b c. Proof. unfold turn. ring. Qed.

Section Order.
Variable o : coord.
Notation ang c := (angle (from o c)).

Local Open Scope R_scope.
Lemma sin_pos_range t : - (2 * PI) < t < 2 * PI -> 0 < sin t -> 0 < t < PI \/ t < - PI.
Proof.
  intros R S. pose proof PI_RGT_0 as P. destruct (Rlt_or_le (- PI) t) as [L|L].
  - left. destruct (Rlt_or_le 0 t) as [L0|L0].
    + split; [exact L0|]. destruct (Rlt_or_le t PI) as [L1|L1]; [exact L1|]. exfalso.
      destruct (Req_dec t PI) as [->|N]; [rewrite sin_PI in S; lra|]. pose proof (sin_lt_0 t). lra.
    + exfalso. destruct (Req_dec t 0) as [->|N]; [rewrite sin_0 in S; lra|].
      pose proof (sin_gt_0 (- t)). rewrite sin_neg in H. lra.
  - right. destruct (Req_dec t (- PI)) as [->|N]; [rewrite sin_neg, sin_PI in S; lra|lra].
Qed.
Lemma sin_nonneg t : 0 <= t <= PI \/ - (2 * PI) <= t <= - PI -> 0 <= sin t.
Proof.
  intros [[A B]|[A B]]; [apply sin_ge_0; assumption|].
  replace (sin t) with (sin (t + 2 * PI)) by (rewrite (sin_plus t), sin_2PI, cos_2PI; ring). apply sin_ge_0; lra.
Qed.
Lemma turn_sin a b : a <> o -> b <> o -> exists k, 0 < k /\ IZR (turn o a b) = k * sin (ang b - ang a).
Proof.
  intros A B. apply from_nonzero in A. apply from_nonzero in B. exists (len (from o a) * len (from o b)).
  pose proof (len_pos _ A). pose proof (len_pos _ B). split; [nra|]. rewrite (sin_diff _ _ A B), <- turn_det. field. lra.
Qed.
Lemma turn_pos a b : a <> o -> b <> o -> (0 < turn o a b)%Z -> ang a < ang b < ang a + PI \/ ang b < ang a - PI.
Proof.
  intros A B T. destruct (turn_sin a b A B) as (k & K & E). apply IZR_lt in T. rewrite E in T.
  pose proof (angle_range _ (from_nonzero o a A)). pose proof (angle_range _ (from_nonzero o b B)).
  destruct (sin_pos_range (ang b - ang a)) as [H1|H1]; [lra|nra|left; lra|right; lra].
Qed.
Lemma turn_nonneg a b : a <> o -> b <> o -> ang a <= ang b <= ang a + PI \/ ang b <= ang a - PI -> (0 <= turn o a b)%Z.
Proof.
  intros A B H. destruct (turn_sin a b A B) as (k & K & E). apply le_IZR. rewrite E.
  pose proof (angle_range _ (from_nonzero o a A)). pose proof (angle_range _ (from_nonzero o b B)).
  assert (0 <= sin (ang b - ang a)) by (apply sin_nonneg; lra). nra.
Qed.
Lemma ang_below a : a <> o -> (PI < ang a <-> (lat a < lat o)%Z).
Proof.
  intros A. apply from_nonzero in A. split; intros H.
  - destruct (Z.lt_ge_cases (lat a) (lat o)) as [L|L]; [exact L|]. pose proof (angle_upper (from o a)) as U. unfold from at 1 in U. cbn [lat] in U.
    specialize (U ltac:(lia)). lra.
  - apply angle_lower; [exact A|]. unfold from. cbn [lat]. lia.
Qed.
Lemma ang_above a : a <> o -> (0 < ang a < PI <-> (lat o < lat a)%Z).
Proof.
  intros A. apply from_nonzero in A. pose proof (sin_angle (from o a) A) as S. pose proof (len_pos _ A) as L.
  assert (E : IZR (lat a - lat o) = len (from o a) * sin (ang a)) by (rewrite S; change (lat (from o a)) with (lat a - lat o)%Z; field; lra).
  split; intros H.
  - pose proof (sin_gt_0 (ang a) (proj1 H) (proj2 H)). enough (0 < lat a - lat o)%Z by lia. apply lt_IZR. rewrite E. nra.
  - assert (0 < IZR (lat a - lat o)) by (apply IZR_lt; lia). rewrite E in H0. pose proof (angle_range _ A) as R.
    assert (0 < sin (ang a)) by nra. destruct (sin_pos_range (ang a)); lra.
Qed.
Local Close Scope R_scope.

(** ** Edges that are swept: the end met first and the end met last *)
Definition first (s : segment) : coord := if 0 <? turn o (e1 s) (e2 s) then e1 s else e2 s.
Definition final (s : segment) : coord := if 0 <? turn o (e1 s) (e2 s) then e2 s else e1 s.
Definition swept (s : segment) : Prop := turn o (e1 s) (e2 s) <> 0.
Lemma swept_turn s : swept s -> 0 < turn o (first s) (final s).
Proof.
  unfold swept, first, final. intros N. destruct (Z.ltb_spec 0 (turn o (e1 s) (e2 s))); [assumption|]. rewrite turn_swap. lia.
Qed.
Lemma swept_ends s : swept s -> first s <> o /\ final s <> o /\ first s <> final s.
Proof.
  intros S. apply swept_turn in S. repeat split; intros E; [rewrite E, turn_o_l in S|rewrite E, turn_o_r in S|rewrite E, turn_self in S]; lia.
Qed.
Lemma ends_of s : (first s = e1 s /\ final s = e2 s /\ 0 < turn o (e1 s) (e2 s)) \/ (first s = e2 s /\ final s = e1 s /\ turn o (e1 s) (e2 s) <= 0).
Proof. unfold first, final. destruct (Z.ltb_spec 0 (turn o (e1 s) (e2 s))); [left|right]; auto. Qed.
(** crosses the eastward half line strictly *)
Definition initially (s : segment) : Prop := swept s /\ lat (first s) < lat o < lat (final s).

(** [rp] are the vertices visited so far, the latest first *)
Fixpoint open_after (rp : list coord) (s : segment) : Prop :=
  match rp with
  | [] => initially s
  | w :: rp' => first s = w \/ (open_after rp' s /\ final s <> w)
  end.
Definition later (x y : coord) : Prop := before o y x.
Lemma open_char rp s : StronglySorted later rp -> swept s ->
  (open_after rp s <->
   (In (first s) rp /\ (In (final s) rp -> before o (final s) (first s))) \/
   (~ In (first s) rp /\ ~ In (final s) rp /\ initially s)).
Proof.
  intros S W. destruct (swept_ends s W) as (_ & _ & N). induction S as [|w rp S IH F]; cbn [open_after In]; [tauto|].
  rewrite Forall_forall in F. unfold later in F. rewrite IH. clear IH.
  destruct (coord_dec (first s) w) as [E|E].
  - rewrite E. split; [|auto]. intros _. left. split; [auto|]. intros [H|H]; [congruence|apply F, H].
  - destruct (coord_dec (final s) w) as [E'|E'].
    + split; [intros [H|[_ H]]; congruence|]. intros [[[H|H] H2]|(_ & H & _)]; [congruence| |exfalso; apply H; auto].
      exfalso. specialize (F _ H). specialize (H2 (or_introl (eq_sym E'))). rewrite E' in H2.
      exact (before_irrefl o _ (before_trans o _ _ _ F H2)).
    + split.
      * intros [H|[[[H1 H2]|(H1 & H2 & H3)] _]]; [congruence| |].
        -- left. split; [auto|]. intros [H|H]; [congruence|auto].
        -- right. split; [|split; [|exact H3]]; intros [H|H]; try congruence; contradiction.
      * intros [[[H1|H1] H2]|(H1 & H2 & H3)]; [congruence| |]; right; split; try exact E'.
        -- left. auto.
        -- right. split; [|split; [|exact H3]]; intros H; [apply H1|apply H2]; auto.
Qed.

(** the moment before [v] is visited *)
Record moment (all : coord -> Prop) (rp : list coord) (v : coord) : Prop := mkMoment {
  m_sorted : StronglySorted later rp;
  m_v : v <> o;
  m_no : forall c, In c rp -> c <> o;
  m_past : forall c, In c rp -> before o c v;
  m_next : forall c, all c -> c <> o -> c <> v -> ~ In c rp -> before o v c
}.

Lemma initial_wrap s : initially s -> (ang (final s) < ang (first s) - PI)%R.
Proof.
  intros [W [A B]]. destruct (swept_ends s W) as (N1 & N2 & _). apply ang_below in A; [|exact N1]. apply ang_above in B; [|exact N2].
  destruct (turn_pos _ _ N1 N2 (swept_turn s W)); lra.
Qed.

Lemma open_cone all rp v s : moment all rp v -> swept s -> all (first s) -> all (final s) -> open_after rp s -> final s <> v ->
  first s <> v /\ 0 <= turn o (first s) v /\ 0 <= turn o v (final s).
Proof.
  intros [S V No P Q] W A1 A2 Op Nf. destruct (swept_ends s W) as (N1 & N2 & N3).
  pose proof (turn_pos _ _ N1 N2 (swept_turn s W)) as T.
  pose proof (angle_range _ (from_nonzero o _ N1)) as R1. pose proof (angle_range _ (from_nonzero o _ N2)) as R2. pose proof (angle_range _ (from_nonzero o _ V)) as R3.
  pose proof PI_RGT_0 as Pi.
  apply open_char in Op; [|exact S|exact W]. destruct Op as [[H1 H2]|(H1 & H2 & H3)].
  - pose proof (P _ H1) as B1. assert (Ns : first s <> v) by (intros E; rewrite E in B1; exact (before_irrefl o v B1)).
    split; [exact Ns|]. destruct (in_dec coord_dec (final s) rp) as [I|I].
    + pose proof (H2 I) as B2. unfold before in B1, B2. split; apply turn_nonneg; try assumption; [left|right]; lra.
    + pose proof (Q _ A2 N2 Nf I) as B2. unfold before in B1, B2. split; apply turn_nonneg; try assumption; left; lra.
  - pose proof (Q _ A2 N2 Nf H2) as B2. pose proof (initial_wrap s H3) as Wr. unfold before in B2. split.
    + intros E. rewrite E in Wr. lra.
    + split; apply turn_nonneg; try assumption; [right|left]; lra.
Qed.

Lemma cone_open all rp v s : moment all rp v -> swept s -> all (first s) -> all (final s) ->
  0 < turn o (first s) v -> 0 < turn o v (final s) -> open_after rp s /\ final s <> v.
Proof.
  intros [S V No P Q] W A1 A2 T1 T2. destruct (swept_ends s W) as (N1 & N2 & N3).
  assert (Nv1 : first s <> v) by (intros E; rewrite E, turn_self in T1; lia).
  assert (Nv2 : final s <> v) by (intros E; rewrite E, turn_self in T2; lia).
  split; [|exact Nv2]. apply open_char; [exact S|exact W|].
  pose proof (turn_pos _ _ N1 N2 (swept_turn s W)) as T. apply turn_pos in T1; [|assumption..]. apply turn_pos in T2; [|assumption..].
  pose proof (angle_range _ (from_nonzero o _ N1)) as R1. pose proof (angle_range _ (from_nonzero o _ N2)) as R2. pose proof (angle_range _ (from_nonzero o _ V)) as R3.
  pose proof PI_RGT_0 as Pi.
  assert (I : forall c, all c -> c <> o -> c <> v -> (ang c < ang v)%R -> In c rp).
  { intros c Ac Nc Nv L. destruct (in_dec coord_dec c rp) as [I|I]; [exact I|exfalso]. pose proof (Q c Ac Nc Nv I) as B. unfold before in B. lra. }
  assert (I' : forall c, (ang v < ang c)%R -> ~ In c rp).
  { intros c L H. pose proof (P c H) as B. unfold before in B. lra. }
  destruct T as [T|T].
  - assert (ang (first s) < ang v < ang (final s))%R by lra. left. split; [apply I; auto; lra|]. intros H0. exfalso. revert H0. apply I'. lra.
  - destruct T1 as [T1|T1].
    + left. split; [apply I; auto; lra|]. intros _. left. lra.
    + right. split; [apply I'; lra|]. split; [apply I'; lra|]. split; [exact W|]. split; [apply ang_below; [exact N1|lra]|apply ang_above; [exact N2|lra]].
Qed.
End Order.
