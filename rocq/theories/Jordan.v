(** The two sides of a simple closed polygon, over the real plane: a part of the Jordan curve
    theorem for polygons.  No code is modelled here. *)
From Coq Require Import Reals Lra Psatz ZArith Lia List Bool.
Local Open Scope R_scope.

(** ** Points and segments *)
Record pt := P2 { X : R; Y : R }.
Definition mix (a b : pt) (s : R) : pt := P2 ((1 - s) * X a + s * X b) ((1 - s) * Y a + s * Y b).
Definition minus (a b : pt) : pt := P2 (X a - X b) (Y a - Y b).
Definition shift (a : pt) (s : R) (d : pt) : pt := P2 (X a + s * X d) (Y a + s * Y d).
Definition cross (a b : pt) : R := X a * Y b - Y a * X b.
Definition dot (a b : pt) : R := X a * X b + Y a * Y b.
(** the segments from [a] to [b] and from [p] to [q] have a point in common *)
Definition meet (a b p q : pt) : Prop := exists s t, 0 <= s <= 1 /\ 0 <= t <= 1 /\ mix a b s = mix p q t.

Lemma pt_eq a b : X a = X b -> Y a = Y b -> a = b.
Proof. destruct a, b. cbn [X Y]. intros -> ->. reflexivity. Qed.
Lemma mix_flip a b s : mix a b s = mix b a (1 - s).
Proof. apply pt_eq; cbn [mix X Y]; ring. Qed.
Lemma meet_flip a b p q : meet a b p q -> meet b a p q.
Proof. intros (s & t & S & T & E). exists (1 - s), t. split; [lra|]. split; [exact T|]. rewrite <- mix_flip. exact E. Qed.
Lemma meet_flip_r a b p q : meet a b p q -> meet a b q p.
Proof. intros (s & t & S & T & E). exists s, (1 - t). split; [exact S|]. split; [lra|]. rewrite <- mix_flip. exact E. Qed.
(** part of a segment *)
Lemma mix_mix p q s t r : mix (mix p q s) (mix p q t) r = mix p q ((1 - r) * s + r * t).
Proof. apply pt_eq; cbn [mix X Y]; ring. Qed.
Lemma mix_between s t r : 0 <= s <= 1 -> 0 <= t <= 1 -> 0 <= r <= 1 -> 0 <= (1 - r) * s + r * t <= 1.
Proof. intros. nra. Qed.
Lemma meet_part x y p q s t : 0 <= s <= 1 -> 0 <= t <= 1 -> meet x y (mix p q s) (mix p q t) -> meet x y p q.
Proof.
  intros S T (a & b & A & B & E). exists a, ((1 - b) * s + b * t). split; [exact A|]. split; [apply mix_between; assumption|]. rewrite <- mix_mix. exact E.
Qed.
Lemma mix_0 p q : mix p q 0 = p. Proof. apply pt_eq; cbn [mix X Y]; ring. Qed.
Lemma mix_1 p q : mix p q 1 = q. Proof. apply pt_eq; cbn [mix X Y]; ring. Qed.

(** ** The winding number, by crossings of the upward half line *)
Definition turns (p q x : pt) : Z :=
  if Rlt_dec (X x) (X p) then if Rlt_dec (X x) (X q) then 0 else if Rlt_dec 0 (cross (minus q p) (minus x p)) then 1 else 0
  else if Rlt_dec (X x) (X q) then if Rlt_dec (cross (minus q p) (minus x p)) 0 then -1 else 0 else 0.
Lemma cross_flip p q x : cross (minus p q) (minus x q) = - cross (minus q p) (minus x p).
Proof. unfold cross, minus. cbn [X Y]. ring. Qed.
Lemma turns_flip p q x : turns q p x = (- turns p q x)%Z.
Proof.
  unfold turns. rewrite cross_flip. set (k := cross _ _). destruct (Rlt_dec (X x) (X q)), (Rlt_dec (X x) (X p)); try reflexivity;
    [destruct (Rlt_dec 0 (- k)), (Rlt_dec k 0)|destruct (Rlt_dec (- k) 0), (Rlt_dec 0 k)]; try reflexivity; lra.
Qed.
(** above the segment from [x] to [y] *)
Definition over (x y p : pt) : Z :=
  if Rlt_dec (X x) (X p) then if Rlt_dec (X y) (X p) then 0 else if Rlt_dec 0 (cross (minus y x) (minus p x)) then 1 else 0 else 0.

Lemma strip x y a b : X x < X y -> X x <= X a <= X y -> X x <= X b <= X y -> cross (minus y x) (minus a x) * cross (minus y x) (minus b x) <= 0 -> meet x y a b.
Proof.
  intros L A B H. set (fa := cross (minus y x) (minus a x)) in *. set (fb := cross (minus y x) (minus b x)) in *.
  assert (T : exists t, 0 <= t <= 1 /\ (1 - t) * fa + t * fb = 0).
  { destruct (Req_dec fa 0) as [Za|Za]; [exists 0; rewrite Za; split; [lra|ring]|].
    assert (fa * fa > 0) by nra. assert (D : fa - fb <> 0) by (intros E; assert (fb = fa) by lra; rewrite H1 in H; lra).
    exists (fa / (fa - fb)). split; [|field; exact D].
    destruct (Rlt_dec 0 (fa - fb)) as [P|P].
    - assert (0 < fa) by nra. assert (fb <= 0) by nra. split; [apply Rmult_le_pos; [lra|left; apply Rinv_0_lt_compat; lra]|]. apply (Rmult_le_reg_r (fa - fb)); [lra|]. unfold Rdiv. rewrite Rmult_assoc, Rinv_l by lra. lra.
    - assert (N : fa - fb < 0) by lra. assert (fa < 0) by nra. assert (0 <= fb) by nra. replace (fa / (fa - fb)) with ((- fa) / (fb - fa)) by (field; lra).
      split; [apply Rmult_le_pos; [lra|left; apply Rinv_0_lt_compat; lra]|]. apply (Rmult_le_reg_r (fb - fa)); [lra|]. unfold Rdiv. rewrite Rmult_assoc, Rinv_l by lra. lra. }
  destruct T as (t & T & E). set (z := mix a b t).
  assert (Z1 : X x <= X z <= X y) by (unfold z; cbn [mix X]; nra).
  assert (Z2 : cross (minus y x) (minus z x) = 0). { rewrite <- E. unfold fa, fb, z, cross, minus, mix. cbn [X Y]. ring. }
  exists ((X z - X x) / (X y - X x)), t. split.
  - split; [apply Rmult_le_pos; [lra|left; apply Rinv_0_lt_compat; lra]|]. apply (Rmult_le_reg_r (X y - X x)); [lra|]. unfold Rdiv. rewrite Rmult_assoc, Rinv_l by lra. lra.
  - split; [exact T|]. fold z. unfold cross, minus in Z2. cbn [X Y] in Z2. apply pt_eq; unfold mix; cbn [X Y]; [field; lra|].
    apply (Rmult_eq_reg_r (X y - X x)); [|lra]. field_simplify; [|lra]. lra.
Qed.
(** the point of the segment above or below [x] *)
Lemma lift p q x : X p <= X x < X q \/ X p < X x <= X q -> exists t, 0 <= t <= 1 /\ X (mix p q t) = X x /\ cross (minus q p) (minus x p) = (X q - X p) * (Y x - Y (mix p q t)).
Proof.
  intros H. exists ((X x - X p) / (X q - X p)). split; [|split].
  - split; [apply Rmult_le_pos; [lra|left; apply Rinv_0_lt_compat; lra]|]. apply (Rmult_le_reg_r (X q - X p)); [lra|]. unfold Rdiv. rewrite Rmult_assoc, Rinv_l by lra. lra.
  - cbn [mix X]. field. lra.
  - unfold cross, minus, mix. cbn [X Y]. field. lra.
Qed.
Lemma cross_at_y x y z : X z = X y -> cross (minus y x) (minus z x) = (X y - X x) * (Y z - Y y).
Proof. intros E. unfold cross, minus. cbn [X Y]. rewrite E. ring. Qed.
Lemma cross_at_x x y z : X z = X x -> cross (minus y x) (minus z x) = (X y - X x) * (Y z - Y x).
Proof. intros E. unfold cross, minus. cbn [X Y]. rewrite E. ring. Qed.
Lemma sign_pos a b : 0 < a -> (0 < a * b <-> 0 < b). Proof. intros. split; intros; nra. Qed.
Lemma sign_neg a b : 0 < a -> (a * b < 0 <-> b < 0). Proof. intros. split; intros; nra. Qed.
Ltac dec := repeat match goal with
  | |- context [Rlt_dec ?a ?b] => destruct (Rlt_dec a b); try lra
  | H : context [Rlt_dec ?a ?b] |- _ => destruct (Rlt_dec a b); try lra end.

Lemma passing_right x y p q : X x <= X y -> X p <= X q -> ~ meet x y p q -> (turns p q y - turns p q x = over x y q - over x y p)%Z.
Proof.
  intros L O N.
  destruct (Rlt_dec (X x) (X p)) as [p1|p1].
  - assert (q1 : X x < X q) by lra. destruct (Rlt_dec (X y) (X p)) as [p2|p2].
    + unfold turns, over. dec. reflexivity.
    + destruct (Rlt_dec (X y) (X q)) as [q2|q2].
      * (* M R *)
        destruct (lift p q y) as (t & T & Ex & Ec); [lra|].
        assert (Hs : cross (minus y x) (minus p x) * cross (minus y x) (minus (mix p q t) x) <= 0 -> False).
        { intros H. apply N. apply (meet_part x y p q 0 t); [lra|exact T|]. apply strip; try lra; [rewrite mix_0; lra|rewrite mix_0; exact H]. }
        assert (Es : cross (minus y x) (minus (mix p q t) x) = (X y - X x) * (Y (mix p q t) - Y y)) by (apply cross_at_y, Ex).
        rewrite Es in Hs. pose proof (sign_neg (X q - X p) (Y y - Y (mix p q t)) ltac:(lra)) as S1. rewrite <- Ec in S1.
        pose proof (sign_pos (X y - X x) (Y (mix p q t) - Y y) ltac:(lra)) as S2.
        set (u := cross (minus y x) (minus p x)) in *. set (z := (X y - X x) * (Y (mix p q t) - Y y)) in *. set (k := cross (minus q p) (minus y p)) in *.
        assert (Zk : k < 0 <-> 0 < z) by (split; intros Hk; [apply S2; apply S1 in Hk; lra|apply S1; apply S2 in Hk; lra]). clear S1 S2.  destruct Zk as [Z1 Z2].
        unfold turns, over. fold k u. dec; try reflexivity; exfalso; apply Hs; first [pose proof (Z1 ltac:(assumption)); nra|destruct (Rlt_dec 0 z) as [Z|Z]; [exfalso; pose proof (Z2 Z); contradiction|nra]].
      * (* M M *)
        assert (Hs : cross (minus y x) (minus p x) * cross (minus y x) (minus q x) <= 0 -> False) by (intros H; apply N, strip; try lra; exact H).
        set (u := cross (minus y x) (minus p x)) in *. set (z := cross (minus y x) (minus q x)) in *.
        unfold turns, over. fold u z. dec; try reflexivity; exfalso; apply Hs; nra.
  - destruct (Rlt_dec (X x) (X q)) as [q1|q1].
    + destruct (lift p q x) as (t & T & Ex & Ec); [lra|]. destruct (Rlt_dec (X y) (X q)) as [q2|q2].
      * (* L R *)
        destruct (lift p q y) as (t' & T' & Ex' & Ec'); [lra|].
        pose proof (sign_neg (X q - X p) (Y y - Y (mix p q t')) ltac:(lra)) as S1. rewrite <- Ec' in S1.
        pose proof (sign_neg (X q - X p) (Y x - Y (mix p q t)) ltac:(lra)) as S2. rewrite <- Ec in S2.
        destruct (Rlt_dec (X x) (X y)) as [V|V].
        -- assert (Hs : (Y (mix p q t) - Y x) * (Y (mix p q t') - Y y) <= 0 -> False).
           { intros H. apply N. apply (meet_part x y p q t t'); try assumption. apply strip; try lra.
             replace (cross (minus y x) (minus (mix p q t) x)) with ((X y - X x) * (Y (mix p q t) - Y x)) by (symmetry; apply cross_at_x, Ex).
             replace (cross (minus y x) (minus (mix p q t') x)) with ((X y - X x) * (Y (mix p q t') - Y y)) by (symmetry; apply cross_at_y, Ex').
             set (a := Y (mix p q t) - Y x) in *. set (b := Y (mix p q t') - Y y) in *.
             replace ((X y - X x) * a * ((X y - X x) * b)) with (((X y - X x) * (X y - X x)) * (a * b)) by ring. assert (0 < (X y - X x) * (X y - X x)) by nra. nra. }
           set (u := cross (minus q p) (minus y p)) in *. set (z := cross (minus q p) (minus x p)) in *.
           unfold turns, over. fold u z. dec; try reflexivity; exfalso; apply Hs; destruct S1 as [S1 S1'], S2 as [S2 S2'].
           ++ pose proof (S1 ltac:(assumption)). assert (Y x - Y (mix p q t) >= 0) by (apply Rnot_lt_ge; auto). nra.
           ++ pose proof (S2 ltac:(assumption)). assert (Y y - Y (mix p q t') >= 0) by (apply Rnot_lt_ge; auto). nra.
        -- assert (Exy : X x = X y) by lra. assert (Et : mix p q t = mix p q t').
           { assert (t = t'). { cbn [mix X] in Ex, Ex'. apply (Rmult_eq_reg_r (X q - X p)); [|lra]. lra. } subst t'. reflexivity. }
           rewrite <- Et in *. assert (Hs : (Y (mix p q t) - Y x) * (Y (mix p q t) - Y y) <= 0 -> False).
           { intros H. apply N. set (z := Y (mix p q t)) in *. destruct (Req_dec (Y x) (Y y)) as [Ey|Ey].
             - exists 0, t. split; [lra|]. split; [exact T|]. rewrite mix_0. apply pt_eq; [congruence|]. fold z. rewrite <- Ey in H. nra.
             - exists ((z - Y x) / (Y y - Y x)), t.
               assert (U : 0 <= (z - Y x) / (Y y - Y x) <= 1).
               { destruct (Rlt_dec (Y x) (Y y)).
                 - assert (Y x <= z <= Y y) by nra. split; [apply Rmult_le_pos; [lra|left; apply Rinv_0_lt_compat; lra]|]. apply (Rmult_le_reg_r (Y y - Y x)); [lra|]. unfold Rdiv. rewrite Rmult_assoc, Rinv_l by lra. lra.
                 - assert (Y y <= z <= Y x) by nra. replace ((z - Y x) / (Y y - Y x)) with ((Y x - z) / (Y x - Y y)) by (field; lra).
                   split; [apply Rmult_le_pos; [lra|left; apply Rinv_0_lt_compat; lra]|]. apply (Rmult_le_reg_r (Y x - Y y)); [lra|]. unfold Rdiv. rewrite Rmult_assoc, Rinv_l by lra. lra. }
               split; [exact U|]. split; [exact T|]. apply pt_eq.
               + rewrite Ex. cbn [mix X]. rewrite <- Exy. ring.
               + fold z. cbn [mix Y]. field. lra. }
           set (u := cross (minus q p) (minus y p)) in *. set (z := cross (minus q p) (minus x p)) in *.
           unfold turns, over. fold u z. dec; try reflexivity; exfalso; apply Hs; destruct S1 as [S1 S1'], S2 as [S2 S2'].
           ++ pose proof (S1 ltac:(assumption)). assert (Y x - Y (mix p q t) >= 0) by (apply Rnot_lt_ge; auto). nra.
           ++ pose proof (S2 ltac:(assumption)). assert (Y y - Y (mix p q t) >= 0) by (apply Rnot_lt_ge; auto). nra.
      * (* L M *)
        assert (Hs : cross (minus y x) (minus (mix p q t) x) * cross (minus y x) (minus q x) <= 0 -> False).
        { intros H. apply N. apply (meet_part x y p q t 1); [exact T|lra|]. apply strip; try lra; [rewrite mix_1; lra|rewrite mix_1; exact H]. }
        assert (Es : cross (minus y x) (minus (mix p q t) x) = (X y - X x) * (Y (mix p q t) - Y x)) by (apply cross_at_x, Ex).
        rewrite Es in Hs. pose proof (sign_neg (X q - X p) (Y x - Y (mix p q t)) ltac:(lra)) as S1. rewrite <- Ec in S1.
        pose proof (sign_pos (X y - X x) (Y (mix p q t) - Y x) ltac:(lra)) as S2.
        set (u := cross (minus y x) (minus q x)) in *. set (z := (X y - X x) * (Y (mix p q t) - Y x)) in *. set (k := cross (minus q p) (minus x p)) in *.
        assert (Zk : k < 0 <-> 0 < z) by (split; intros Hk; [apply S2; apply S1 in Hk; lra|apply S1; apply S2 in Hk; lra]). clear S1 S2.  destruct Zk as [Z1 Z2].
        unfold turns, over. fold k u. dec; try reflexivity; exfalso; apply Hs; first [pose proof (Z1 ltac:(assumption)); nra|destruct (Rlt_dec 0 z) as [Z|Z]; [exfalso; pose proof (Z2 Z); contradiction|nra]].
    + (* L L *) unfold turns, over. dec. reflexivity.
Qed.
Lemma passing x y p q : X x <= X y -> ~ meet x y p q -> (turns p q y - turns p q x = over x y q - over x y p)%Z.
Proof.
  intros L N. destruct (Rle_lt_dec (X p) (X q)) as [O|O]; [apply passing_right; assumption|].
  pose proof (passing_right x y q p L ltac:(lra)) as H. rewrite (turns_flip p q y), (turns_flip p q x) in H. assert (M : ~ meet x y q p) by (intros M; apply N, meet_flip_r, M). specialize (H M). lia.
Qed.

(** ** Disjoint segments stay disjoint when they are moved a little *)
Definition soon (P : R -> Prop) : Prop := exists h, 0 < h /\ forall e, 0 < e <= h -> P e.
Lemma soon_and P Q : soon P -> soon Q -> soon (fun e => P e /\ Q e).
Proof.
  intros (h & H & A) (k & K & B). exists (Rmin h k). split; [apply Rmin_pos; assumption|]. intros e E. pose proof (Rmin_l h k). pose proof (Rmin_r h k). split; [apply A|apply B]; lra.
Qed.
Lemma soon_now (P : R -> Prop) : (forall e, 0 < e -> P e) -> soon P.
Proof. intros H. exists 1. split; [lra|]. intros e E. apply H. lra. Qed.
Lemma soon_mono (P Q : R -> Prop) : (forall e, 0 < e -> P e -> Q e) -> soon P -> soon Q.
Proof. intros H (h & Hh & A). exists h. split; [exact Hh|]. intros e E. apply H; [lra|apply A, E]. Qed.
Lemma soon_all n (P : nat -> R -> Prop) : (forall i, (i < n)%nat -> soon (P i)) -> soon (fun e => forall i, (i < n)%nat -> P i e).
Proof.
  induction n as [|n IH]; intros H; [apply soon_now; intros; lia|].
  destruct (soon_and _ _ (IH (fun i L => H i ltac:(lia))) (H n ltac:(lia))) as (h & Hh & A). exists h. split; [exact Hh|]. intros e E i L. destruct (A e E) as [A1 A2].
  destruct (Nat.eq_dec i n) as [->|D]; [exact A2|apply A1; lia].
Qed.
Lemma soon_pos a b : 0 < a -> soon (fun e => 0 < a + e * b).
Proof.
  intros A. destruct (Rle_lt_dec 0 b) as [B|B]; [apply soon_now; intros; nra|]. exists (a / (- 2 * b)). split; [apply Rdiv_lt_0_compat; lra|].
  intros e E. assert (e * (- b) <= a / (- 2 * b) * (- b)) by (apply Rmult_le_compat_r; lra). replace (a / (- 2 * b) * (- b)) with (a / 2) in H by (field; lra). lra.
Qed.
Definition apart_by (f a b p q : pt) : Prop := dot f a < dot f p /\ dot f a < dot f q /\ dot f b < dot f p /\ dot f b < dot f q.
Lemma apart_no_meet f a b p q : apart_by f a b p q -> ~ meet a b p q.
Proof.
  intros (H1 & H2 & H3 & H4) (s & t & S & T & E).
  assert (Ea : dot f (mix a b s) = (1 - s) * dot f a + s * dot f b) by (unfold dot, mix; cbn [X Y]; ring).
  assert (Ep : dot f (mix p q t) = (1 - t) * dot f p + t * dot f q) by (unfold dot, mix; cbn [X Y]; ring).
  rewrite E, Ep in Ea. set (A := dot f a) in *. set (B := dot f b) in *. set (P := dot f p) in *. set (Q := dot f q) in *. clearbody A B P Q. clear E Ep.
  assert (M : exists c, A < c /\ B < c /\ c < P /\ c < Q).
  { exists ((Rmax A B + Rmin P Q) / 2). pose proof (Rmax_l A B). pose proof (Rmax_r A B). pose proof (Rmin_l P Q). pose proof (Rmin_r P Q).
    assert (Rmax A B < Rmin P Q) by (apply Rmax_lub_lt; apply Rmin_glb_lt; assumption). lra. }
  destruct M as (c & M1 & M2 & M3 & M4).
  assert ((1 - s) * A + s * B < c). { assert ((1 - s) * A + s * B <= Rmax A B) by (pose proof (Rmax_l A B); pose proof (Rmax_r A B); nra). assert (Rmax A B < c) by (apply Rmax_lub_lt; assumption). lra. }
  assert (c < (1 - t) * P + t * Q). { assert (Rmin P Q <= (1 - t) * P + t * Q) by (pose proof (Rmin_l P Q); pose proof (Rmin_r P Q); nra). assert (c < Rmin P Q) by (apply Rmin_glb_lt; assumption). lra. }
  lra.
Qed.
Definition opp (a : pt) : pt := P2 (- X a) (- Y a).
Lemma apart_swap f a b p q : apart_by f a b p q -> apart_by (opp f) p q a b.
Proof. unfold apart_by, dot, opp. cbn [X Y]. intros (A & B & C & D). repeat split; lra. Qed.
Lemma meet_swap a b p q : meet a b p q -> meet p q a b.
Proof. intros (s & t & S & T & E). exists t, s. auto. Qed.
(** the line along [d] leaves both ends on one side *)
Lemma apart_side d v a b p q k : k = 1 \/ k = -1 -> k * cross d (minus a v) <= 0 -> k * cross d (minus b v) <= 0 -> 0 < k * cross d (minus p v) -> 0 < k * cross d (minus q v) ->
  exists f, apart_by f a b p q.
Proof.
  intros K A B P Q. exists (P2 (- k * Y d) (k * X d)). unfold apart_by, dot. unfold cross, minus in *. cbn [X Y] in *. repeat split; lra.
Qed.
Lemma apart_far a b p q : a <> b -> ~ meet a b p q -> exists f, apart_by f a b p q.
Proof.
  intros Nab N. set (d := minus b a). set (e := minus q p). set (D := cross d e).
  assert (Da : cross d (minus a a) = 0) by (unfold cross, minus; cbn [X Y]; ring).
  assert (Db : cross d (minus b a) = 0) by (unfold d, cross, minus; cbn [X Y]; ring).
  assert (Ep : cross e (minus p p) = 0) by (unfold cross, minus; cbn [X Y]; ring).
  assert (Eq : cross e (minus q p) = 0) by (unfold e, cross, minus; cbn [X Y]; ring).
  assert (Dq : cross d (minus q a) = cross d (minus p a) + D) by (unfold D, e, d, cross, minus; cbn [X Y]; ring).
  assert (Eb : cross e (minus b p) = cross e (minus a p) - D) by (unfold D, e, d, cross, minus; cbn [X Y]; ring).
  assert (Sg : forall x y, 0 < x * y -> exists k, (k = 1 \/ k = -1) /\ 0 < k * x /\ 0 < k * y).
  { intros x y H. destruct (Rtotal_order x 0) as [L|[->|L]]; [|lra|].
    - exists (-1). split; [auto|]. split; [lra|]. assert (y < 0); [|lra]. destruct (Rlt_le_dec y 0); [assumption|]. assert (0 <= - x * y) by (apply Rmult_le_pos; lra). lra.
    - exists 1. split; [auto|]. split; [lra|]. assert (0 < y); [|lra]. destruct (Rlt_le_dec 0 y); [assumption|]. assert (0 <= x * - y) by (apply Rmult_le_pos; lra). lra. }
  destruct (Rlt_dec 0 (cross d (minus p a) * cross d (minus q a))) as [H|H].
  { destruct (Sg _ _ H) as (k & K & H1 & H2). apply (apart_side d a a b p q k K); try assumption; rewrite ?Da, ?Db; lra. }
  destruct (Rlt_dec 0 (cross e (minus a p) * cross e (minus b p))) as [H'|H'].
  { destruct (Sg _ _ H') as (k & K & H1 & H2). destruct (apart_side e p p q a b k K) as (f & F); try assumption; rewrite ?Ep, ?Eq; try lra. exists (opp f). apply apart_swap, F. }
  rewrite Dq in H. rewrite Eb in H'. set (x := cross d (minus p a)) in *. set (y := cross e (minus a p)) in *.
  destruct (Req_dec D 0) as [D0|D0].
  - (* one line *)
    rewrite D0 in H. assert (x = 0) by nra. clear H H'.
    assert (L : 0 < dot d d). { unfold dot, d, minus. cbn [X Y]. destruct (Req_dec (X a) (X b)) as [Ex|Ex]; [destruct (Req_dec (Y a) (Y b)) as [Ey|Ey]; [exfalso; apply Nab, pt_eq; assumption|]|]; [assert (0 < (Y b - Y a) * (Y b - Y a)) by (apply Rsqr_pos_lt; lra); pose proof (Rle_0_sqr (X b - X a))|assert (0 < (X b - X a) * (X b - X a)) by (apply Rsqr_pos_lt; lra); pose proof (Rle_0_sqr (Y b - Y a))]; unfold Rsqr in *; lra. }
    set (P := dot d (minus p a)). set (Q := dot d (minus q a)). set (K := dot d d) in *.
    assert (Col : forall z, cross d (minus z a) = 0 -> X z * K = X a * K + dot d (minus z a) * X d /\ Y z * K = Y a * K + dot d (minus z a) * Y d).
    { intros z Hz. split; apply Rminus_diag_uniq.
      - transitivity (- Y d * cross d (minus z a)); [unfold K, dot, cross, minus; cbn [X Y]; ring|rewrite Hz; ring].
      - transitivity (X d * cross d (minus z a)); [unfold K, dot, cross, minus; cbn [X Y]; ring|rewrite Hz; ring]. }
    assert (Hq0 : cross d (minus q a) = 0) by (rewrite Dq, H0, D0; ring).
    destruct (Col p H0) as [Xp Yp]. destruct (Col q Hq0) as [Xq Yq]. fold P in Xp, Yp. fold Q in Xq, Yq.
    assert (On : forall t, 0 <= t <= 1 -> 0 <= (1 - t) * P + t * Q <= K -> False).
    { intros t T H. apply N. exists (((1 - t) * P + t * Q) / K), t. split.
      - split; [apply Rmult_le_pos; [lra|left; apply Rinv_0_lt_compat; lra]|]. apply (Rmult_le_reg_r K); [lra|]. unfold Rdiv. rewrite Rmult_assoc, Rinv_l by lra. lra.
      - split; [exact T|]. apply pt_eq; apply (Rmult_eq_reg_r K); try lra; unfold mix; cbn [X Y].
        + replace (((1 - t) * X p + t * X q) * K) with ((1 - t) * (X p * K) + t * (X q * K)) by ring. rewrite Xp, Xq. unfold d, minus. cbn [X Y]. field. lra.
        + replace (((1 - t) * Y p + t * Y q) * K) with ((1 - t) * (Y p * K) + t * (Y q * K)) by ring. rewrite Yp, Yq. unfold d, minus. cbn [X Y]. field. lra. }
    assert (C : (P < 0 /\ Q < 0) \/ (K < P /\ K < Q)).
    { destruct (Rlt_dec P 0) as [P0|P0].
      - destruct (Rlt_dec Q 0) as [Q0|Q0]; [auto|]. exfalso. apply (On (P / (P - Q))).
        + replace (P / (P - Q)) with ((- P) / (Q - P)) by (field; lra). split; [apply Rmult_le_pos; [lra|left; apply Rinv_0_lt_compat; lra]|]. apply (Rmult_le_reg_r (Q - P)); [lra|]. unfold Rdiv. rewrite Rmult_assoc, Rinv_l by lra. lra.
        + replace ((1 - P / (P - Q)) * P + P / (P - Q) * Q) with 0 by (field; lra). lra.
      - destruct (Rlt_dec K P) as [P1|P1]; [|exfalso; apply (On 0); lra]. right. split; [exact P1|]. destruct (Rlt_dec K Q) as [Q1|Q1]; [exact Q1|]. exfalso. apply (On ((P - K) / (P - Q))).
        + split; [apply Rmult_le_pos; [lra|left; apply Rinv_0_lt_compat; lra]|]. apply (Rmult_le_reg_r (P - Q)); [lra|]. unfold Rdiv. rewrite Rmult_assoc, Rinv_l by lra. lra.
        + replace ((1 - (P - K) / (P - Q)) * P + (P - K) / (P - Q) * Q) with K by (field; lra). lra. }
    assert (Va : dot d a = dot d b - K) by (unfold K, d, dot, minus; cbn [X Y]; ring).
    assert (Vp : dot d p = dot d a + P) by (unfold P, dot, minus; cbn [X Y]; ring). assert (Vq : dot d q = dot d a + Q) by (unfold Q, dot, minus; cbn [X Y]; ring).
    destruct C as [[C1 C2]|[C1 C2]]; [exists (opp d)|exists d]; unfold apart_by.
    + assert (O : forall z, dot (opp d) z = - dot d z) by (intros z; unfold dot, opp; cbn [X Y]; ring). rewrite !O. repeat split; lra.
    + repeat split; lra.
  - (* the lines cross *)
    exfalso. apply N. exists (y / D), (- x / D).
    assert (Y1 : y * y <= y * D) by nra. assert (X1 : x * x <= - x * D) by nra.
    assert (U : forall z, z * z <= z * D -> 0 <= z / D <= 1).
    { intros z Hz. destruct (Rlt_le_dec 0 D).
      - assert (0 <= z <= D) by nra. split; [apply Rmult_le_pos; [lra|left; apply Rinv_0_lt_compat; lra]|]. apply (Rmult_le_reg_r D); [lra|]. unfold Rdiv. rewrite Rmult_assoc, Rinv_l by lra. lra.
      - assert (D < 0) by lra. assert (D <= z <= 0) by nra. replace (z / D) with ((- z) / (- D)) by (field; lra). split; [apply Rmult_le_pos; [lra|left; apply Rinv_0_lt_compat; lra]|]. apply (Rmult_le_reg_r (- D)); [lra|]. unfold Rdiv. rewrite Rmult_assoc, Rinv_l by lra. lra. }
    split; [apply U, Y1|]. split; [apply U; nra|]. apply pt_eq; apply (Rmult_eq_reg_r D); try exact D0; unfold mix; cbn [X Y]; field_simplify; try exact D0; unfold x, y, D, d, e, cross, minus; cbn [X Y]; ring.
Qed.
Lemma perturb A B p q a b : A <> B \/ p <> q -> ~ meet A B p q -> soon (fun e => ~ meet (shift A e a) (shift B e b) p q).
Proof.
  intros D N. assert (F : exists f, apart_by f A B p q).
  { destruct D as [D|D]; [apply apart_far; assumption|]. destruct (apart_far p q A B D (fun M => N (meet_swap _ _ _ _ M))) as (f & F). exists (opp f). apply apart_swap, F. }
  destruct F as (f & F1 & F2 & F3 & F4).
  assert (S : forall u v w, dot f u < dot f v -> soon (fun e => dot f (shift u e w) < dot f v)).
  { intros u v w H. eapply soon_mono; [|apply (soon_pos (dot f v - dot f u) (- dot f w)); lra]. intros e _ P. cbv beta in P.
    replace (dot f (shift u e w)) with (dot f u + e * dot f w) by (unfold dot, shift; cbn [X Y]; ring). lra. }
  eapply soon_mono; [|exact (soon_and _ _ (soon_and _ _ (S A p a F1) (S A q a F2)) (soon_and _ _ (S B p b F3) (S B q b F4)))].
  intros e _ ((A1 & A2) & (A3 & A4)). apply (apart_no_meet f). repeat split; assumption.
Qed.
(** strictly on one side of a line, and not on it *)
Lemma parted k d v a b p q : 0 < k * cross d (minus a v) -> 0 < k * cross d (minus b v) -> k * cross d (minus p v) <= 0 -> k * cross d (minus q v) <= 0 -> ~ meet a b p q.
Proof.
  intros A B P Q (s & t & S & T & E).
  assert (Ea : cross d (minus (mix a b s) v) = (1 - s) * cross d (minus a v) + s * cross d (minus b v)) by (unfold cross, minus, mix; cbn [X Y]; ring).
  assert (Ep : cross d (minus (mix p q t) v) = (1 - t) * cross d (minus p v) + t * cross d (minus q v)) by (unfold cross, minus, mix; cbn [X Y]; ring).
  rewrite E, Ep in Ea. set (x := cross d (minus a v)) in *. set (y := cross d (minus b v)) in *. set (z := cross d (minus p v)) in *. set (w := cross d (minus q v)) in *. clearbody x y z w. clear E Ep.
  assert (Ek : (1 - t) * (k * z) + t * (k * w) = (1 - s) * (k * x) + s * (k * y)) by (replace ((1 - t) * (k * z) + t * (k * w)) with (k * ((1 - t) * z + t * w)) by ring; rewrite Ea; ring).
  set (kx := k * x) in *. set (ky := k * y) in *. set (kz := k * z) in *. set (kw := k * w) in *. clearbody kx ky kz kw. clear Ea.
  assert ((1 - t) * kz + t * kw <= 0) by nra. assert (0 < (1 - s) * kx + s * ky) by nra. lra.
Qed.

(** ** Rings *)
Fixpoint total (n : nat) (f : nat -> Z) : Z := match n with O => 0 | S m => total m f + f m end%Z.
Lemma total_ext n f g : (forall i, (i < n)%nat -> f i = g i) -> total n f = total n g.
Proof. induction n as [|n IH]; intros H; [reflexivity|]. cbn [total]. rewrite IH by (intros; apply H; lia). rewrite H by lia. reflexivity. Qed.
Lemma total_minus n f g : (total n f - total n g = total n (fun i => f i - g i))%Z.
Proof. induction n as [|n IH]; [reflexivity|]. cbn [total]. lia. Qed.
Lemma total_steps n f : total n (fun i => f (S i) - f i)%Z = (f n - f 0%nat)%Z.
Proof. induction n as [|n IH]; cbn [total]; lia. Qed.
Lemma total_one n f i : (i < n)%nat -> (forall j, (j < n)%nat -> j <> i -> f j = 0%Z) -> total n f = f i.
Proof.
  induction n as [|n IH]; intros L H; [lia|]. cbn [total]. destruct (Nat.eq_dec i n) as [->|D].
  - rewrite (total_ext n f (fun _ => 0%Z)) by (intros; apply H; lia). assert (E : forall m, total m (fun _ => 0%Z) = 0%Z) by (induction m; cbn [total]; lia). rewrite E. lia.
  - rewrite IH by (try lia; intros; apply H; lia). rewrite (H n) by lia. lia.
Qed.

Section Ring.
Variables (n : nat) (V : nat -> pt).
Notation D i := (minus (V (S i)) (V i)).
Definition winding (x : pt) : Z := total n (fun i => turns (V i) (V (S i)) x).
Definition misses (a b : pt) : Prop := forall i, (i < n)%nat -> ~ meet a b (V i) (V (S i)).
Lemma misses_flip a b : misses a b -> misses b a.
Proof. intros H i L M. apply (H i L), meet_flip, M. Qed.
Lemma moving x y : V n = V 0%nat -> misses x y -> winding x = winding y.
Proof.
  intros C. assert (K : forall x y, X x <= X y -> misses x y -> winding x = winding y).
  { intros a b L M. enough (E : (winding b - winding a = 0)%Z) by lia. unfold winding. rewrite total_minus.
    rewrite (total_ext n _ (fun i => over a b (V (S i)) - over a b (V i))%Z) by (intros i I; apply passing; [exact L|apply M, I]).
    rewrite (total_steps n (fun i => over a b (V i))). rewrite C. lia. }
  intros M. destruct (Rle_lt_dec (X x) (X y)) as [L|L]; [apply K; assumption|symmetry; apply K; [lra|apply misses_flip, M]].
Qed.

(** simple: consecutive edges meet only in their common end, and other edges do not meet *)
Hypothesis N3 : (3 <= n)%nat.
Hypothesis Per : forall i, V (i + n)%nat = V i.
Hypothesis Dist : forall i, V i <> V (S i).
Hypothesis Next : forall i s t, 0 <= s <= 1 -> 0 <= t <= 1 -> mix (V i) (V (S i)) s = mix (V (S i)) (V (S (S i))) t -> s = 1 /\ t = 0.
Hypothesis Far : forall i j, (i < n)%nat -> (j < n)%nat -> i <> j -> i <> (S j mod n)%nat -> j <> (S i mod n)%nat -> ~ meet (V i) (V (S i)) (V j) (V (S j)).

Lemma vmul i k : V (i + k * n)%nat = V i.
Proof. induction k as [|k IH]; [f_equal; lia|]. replace (i + S k * n)%nat with (i + k * n + n)%nat by lia. rewrite Per. exact IH. Qed.
Lemma vmod i : V (i mod n)%nat = V i.
Proof. rewrite (Nat.div_mod i n) at 2 by lia. rewrite Nat.add_comm, Nat.mul_comm. symmetry. apply vmul. Qed.
Lemma vsmod i : V (S (i mod n))%nat = V (S i).
Proof. rewrite (Nat.div_mod i n) at 2 by lia. replace (S (n * (i / n) + i mod n)) with (S (i mod n) + (i / n) * n)%nat by lia. symmetry. apply vmul. Qed.
Lemma closed : V n = V 0%nat. Proof. apply (Per 0). Qed.
(** an edge is the one before, the same, the one after, or does not meet *)
Lemma edges_at i j : (j < n)%nat -> (V j = V i /\ V (S j) = V (S i)) \/ j = (S i mod n)%nat \/ (V j = V (S (S i)) /\ V (S j) = V (S (S (S i)))) \/
  ~ meet (V (S i)) (V (S (S i))) (V j) (V (S j)).
Proof.
  intros J. set (m := (S i mod n)%nat). assert (M : (m < n)%nat) by (apply Nat.mod_upper_bound; lia).
  assert (Vm : V m = V (S i)) by apply vmod. assert (Vsm : V (S m) = V (S (S i))) by apply vsmod.
  destruct (Nat.eq_dec j m) as [E0|D1]; [right; left; exact E0|].
  destruct (Nat.eq_dec j (S m mod n)) as [->|D2].
  { right. right. left. rewrite vmod, vsmod. split; [exact Vsm|]. unfold m. destruct (Nat.eq_dec (S (S i mod n)) n) as [E|E].
    - rewrite <- (vmod (S (S (S i mod n)))). rewrite <- (vmod (S (S (S i)))). f_equal. replace (S (S (S i mod n))) with (2 + S i mod n)%nat by lia. rewrite Nat.add_mod_idemp_r by lia. f_equal.
    - rewrite <- (vmod (S (S (S i mod n)))). rewrite <- (vmod (S (S (S i)))). f_equal. replace (S (S (S i mod n))) with (2 + S i mod n)%nat by lia. rewrite Nat.add_mod_idemp_r by lia. f_equal. }
  destruct (Nat.eq_dec m (S j mod n)) as [D3|D3].
  { left. assert (E : (j = i mod n)%nat).
    { unfold m in D3. assert (A : ((S j + (n - 1)) mod n = (S i + (n - 1)) mod n)%nat) by (rewrite <- (Nat.add_mod_idemp_l (S j)), <- (Nat.add_mod_idemp_l (S i)), D3 by lia; reflexivity).
      replace (S j + (n - 1))%nat with (j + 1 * n)%nat in A by lia. replace (S i + (n - 1))%nat with (i + 1 * n)%nat in A by lia. rewrite !Nat.mod_add in A by lia. rewrite Nat.mod_small in A by exact J. exact A. }
    subst j. rewrite vmod, vsmod. auto. }
  right. right. right. rewrite <- Vm, <- Vsm. apply Far; auto.
Qed.

Lemma edges i j : (j < n)%nat -> (V j = V i /\ V (S j) = V (S i)) \/ (V j = V (S i) /\ V (S j) = V (S (S i))) \/ (V j = V (S (S i)) /\ V (S j) = V (S (S (S i)))) \/
  ~ meet (V (S i)) (V (S (S i))) (V j) (V (S j)).
Proof. intros J. destruct (edges_at i j J) as [H|[->|H]]; [auto|right; left; rewrite vmod, vsmod; auto|auto]. Qed.

Section Side.
Variable k : R.
Hypothesis K : k = 1 \/ k = -1.
(** a direction in which to leave [V (S i)] on the side [k] of the ring, along its next edge or its last *)
Definition onward (i : nat) (a : pt) : Prop := 0 < k * cross (D (S i)) a /\ (0 < k * cross (D i) (D (S i)) -> 0 < k * cross (D i) a).
Definition back (i : nat) (a : pt) : Prop := 0 < k * cross (D i) a /\ (0 < k * cross (D i) (D (S i)) -> 0 < k * cross (D (S i)) a).
Definition lean (i : nat) : pt :=
  if Rlt_dec 0 (k * cross (D i) (D (S i))) then minus (D (S i)) (D i)
  else if Rlt_dec (k * cross (D i) (D (S i))) 0 then minus (D i) (D (S i)) else P2 (- k * Y (D i)) (k * X (D i)).
Lemma vec_pos a b : a <> b -> 0 < dot (minus b a) (minus b a).
Proof.
  intros Nab. unfold dot, minus. cbn [X Y]. destruct (Req_dec (X a) (X b)) as [Ex|Ex]; [destruct (Req_dec (Y a) (Y b)) as [Ey|Ey]; [exfalso; apply Nab, pt_eq; assumption|]|];
    [assert (0 < (Y b - Y a) * (Y b - Y a)) by (apply Rsqr_pos_lt; lra); pose proof (Rle_0_sqr (X b - X a))|assert (0 < (X b - X a) * (X b - X a)) by (apply Rsqr_pos_lt; lra); pose proof (Rle_0_sqr (Y b - Y a))]; unfold Rsqr in *; lra.
Qed.
Lemma kk : k * k = 1. Proof. destruct K as [-> | ->]; ring. Qed.
Lemma straight_on i : cross (D i) (D (S i)) = 0 -> 0 < dot (D i) (D (S i)).
Proof.
  intros C. pose proof (vec_pos _ _ (Dist i)) as Q. set (d := D i) in *. set (e := D (S i)) in *. set (q := dot d d) in *. set (f := dot d e).
  assert (Ex : X e * q = f * X d). { apply Rminus_diag_uniq. transitivity (- Y d * cross d e); [unfold q, f, dot, cross; ring|rewrite C; ring]. }
  assert (Ey : Y e * q = f * Y d). { apply Rminus_diag_uniq. transitivity (X d * cross d e); [unfold q, f, dot, cross; ring|rewrite C; ring]. }
  destruct (Rlt_le_dec 0 f) as [F|F]; [exact F|exfalso].
  assert (Sx : mix (V i) (V (S i)) (q / (q - f)) = mix (V (S i)) (V (S (S i))) (q / (q - f))).
  { apply pt_eq; apply (Rmult_eq_reg_r (q - f)); try lra; unfold mix; cbn [X Y].
    - transitivity (q * X (V (S i)) - f * X (V i)); [field; lra|]. transitivity (q * X (V (S (S i))) - f * X (V (S i))); [|field; lra]. unfold e, d in Ex. cbn [minus X Y] in Ex. lra.
    - transitivity (q * Y (V (S i)) - f * Y (V i)); [field; lra|]. transitivity (q * Y (V (S (S i))) - f * Y (V (S i))); [|field; lra]. unfold e, d in Ey. cbn [minus X Y] in Ey. lra. }
  assert (U : 0 < q / (q - f) <= 1) by (split; [apply Rdiv_lt_0_compat; lra|apply (Rmult_le_reg_r (q - f)); [lra|]; unfold Rdiv; rewrite Rmult_assoc, Rinv_l by lra; lra]).
  destruct (Next i (q / (q - f)) (q / (q - f)) ltac:(lra) ltac:(lra) Sx) as [_ E0]. lra.
Qed.
Lemma lean_ok i : 0 < k * cross (D i) (lean i) /\ 0 < k * cross (D (S i)) (lean i).
Proof.
  unfold lean. set (c := k * cross (D i) (D (S i))).
  destruct (Rlt_dec 0 c) as [P|P].
  { split; [replace (k * cross (D i) (minus (D (S i)) (D i))) with c by (unfold c, cross, minus; cbn [X Y]; ring); exact P|].
    replace (k * cross (D (S i)) (minus (D (S i)) (D i))) with c by (unfold c, cross, minus; cbn [X Y]; ring). exact P. }
  destruct (Rlt_dec c 0) as [Q|Q].
  { split; [replace (k * cross (D i) (minus (D i) (D (S i)))) with (- c) by (unfold c, cross, minus; cbn [X Y]; ring); lra|].
    replace (k * cross (D (S i)) (minus (D i) (D (S i)))) with (- c) by (unfold c, cross, minus; cbn [X Y]; ring). lra. }
  assert (C : cross (D i) (D (S i)) = 0). { assert (Z : c = 0) by lra. unfold c in Z. destruct K as [Ek|Ek]; rewrite Ek in Z; lra. }
  pose proof (straight_on i C) as S0. pose proof (vec_pos _ _ (Dist i)) as Q0.
  split.
  - replace (k * cross (D i) (P2 (- k * Y (D i)) (k * X (D i)))) with ((k * k) * dot (D i) (D i)) by (unfold cross, dot; cbn [X Y]; ring). rewrite kk. lra.
  - replace (k * cross (D (S i)) (P2 (- k * Y (D i)) (k * X (D i)))) with ((k * k) * dot (D i) (D (S i))) by (unfold cross, dot; cbn [X Y]; ring). rewrite kk. lra.
Qed.
Lemma lean_onward i : onward i (lean i). Proof. destruct (lean_ok i). split; auto. Qed.
Lemma lean_back i : back i (lean i). Proof. destruct (lean_ok i). split; auto. Qed.

Lemma cross_shift d p v e a : cross d (minus (shift p e a) v) = cross d (minus p v) + e * cross d a.
Proof. unfold cross, minus, shift. cbn [X Y]. ring. Qed.
Lemma cross_mix d p q s v : cross d (minus (mix p q s) v) = (1 - s) * cross d (minus p v) + s * cross d (minus q v).
Proof. unfold cross, minus, mix. cbn [X Y]. ring. Qed.
Lemma cross_self d : cross d d = 0. Proof. unfold cross. ring. Qed.
Lemma cross_vv d v : cross d (minus v v) = 0. Proof. unfold cross, minus. cbn [X Y]. ring. Qed.
Lemma cross_opp p q d : cross d (minus p q) = - cross d (minus q p). Proof. unfold cross, minus. cbn [X Y]. ring. Qed.
Lemma cross_anti a b : cross a b = - cross b a. Proof. unfold cross. ring. Qed.

(** along an edge, close to it, nothing is in the way *)
Lemma alongside i s a b : 0 <= s < 1 -> 0 < k * cross (D (S i)) a -> (s = 0 -> onward i a) -> back (S i) b ->
  soon (fun e => misses (shift (mix (V (S i)) (V (S (S i))) s) e a) (shift (V (S (S i))) e b)).
Proof.
  intros Hs Ha Hon [Hb Hb']. set (A := mix (V (S i)) (V (S (S i))) s). set (B := V (S (S i))). set (d := D (S i)) in *.
  assert (dA : cross d (minus A (V (S i))) = 0) by (unfold A, d; rewrite cross_mix, cross_vv, cross_self; ring).
  assert (dB : cross d (minus B (V (S i))) = 0) by apply cross_self.
  apply soon_all. intros j J. destruct (edges i j J) as [[-> ->]|[[-> ->]|[[-> ->]|F]]].
  - (* the edge before *)
    set (p := D i) in *. destruct (Req_dec s 0) as [Z|Z].
    + specialize (Hon Z). destruct Hon as [_ Hon]. fold p d in Hon. assert (EA : A = V (S i)) by (unfold A; rewrite Z; apply mix_0). rewrite EA.
      destruct (Rlt_dec 0 (k * cross p d)) as [C|C].
      * (* convex: beside the line of the edge before *)
        specialize (Hon C). eapply soon_mono; [|apply (soon_pos (k * cross p d) (k * cross p b) C)]. intros e E Q. cbv beta in Q.
        apply (parted k p (V (S i))).
        -- rewrite cross_shift, cross_vv. nra.
        -- rewrite cross_shift. unfold B, d in *. lra.
        -- rewrite cross_opp. fold p. rewrite cross_self. lra.
        -- rewrite cross_vv. lra.
      * apply soon_now. intros e E. apply (parted k d (V (S i))).
        -- rewrite cross_shift, cross_vv. nra.
        -- rewrite cross_shift, dB. nra.
        -- rewrite cross_opp. fold p. rewrite (cross_anti d p). lra.
        -- rewrite cross_vv. lra.
    + apply perturb; [right; apply Dist|]. intros (u & v & Hu & Hv & E). unfold A, B in E. rewrite <- (mix_1 (V (S i)) (V (S (S i)))) in E at 2. rewrite mix_mix in E. symmetry in E.
      destruct (Next i v ((1 - u) * s + u * 1) Hv ltac:(nra) E) as [_ W]. nra.
  - (* the edge itself *)
    apply soon_now. intros e E. apply (parted k d (V (S i))).
    + rewrite cross_shift, dA. nra.
    + rewrite cross_shift, dB. nra.
    + rewrite cross_vv. lra.
    + fold d. rewrite cross_self. lra.
  - (* the edge after *)
    set (q := D (S (S i))) in *. destruct (Rlt_dec 0 (k * cross d q)) as [C|C].
    + specialize (Hb' C). assert (qA : k * cross q (minus A B) = (1 - s) * (k * cross d q)).
      { unfold A, B. rewrite cross_mix, cross_vv, cross_opp. fold d. rewrite (cross_anti q d). ring. }
      eapply soon_mono; [|apply (soon_pos (k * cross q (minus A B)) (k * cross q a)); rewrite qA; apply Rmult_lt_0_compat; lra]. intros e E Q. cbv beta in Q.
      apply (parted k q B).
      * rewrite cross_shift. lra.
      * rewrite cross_shift, cross_vv. nra.
      * unfold B. rewrite cross_vv. lra.
      * unfold B. fold q. rewrite cross_self. lra.
    + apply soon_now. intros e E. apply (parted k d B).
      * rewrite cross_shift. replace (cross d (minus A B)) with 0; [nra|]. unfold A, B. rewrite cross_mix, cross_vv, cross_opp. fold d. rewrite cross_self. ring.
      * rewrite cross_shift, cross_vv. nra.
      * unfold B. rewrite cross_vv. lra.
      * unfold B. fold q. lra.
  - apply perturb; [right; apply Dist|]. intros M. apply F, meet_swap. unfold A, B in M. rewrite <- (mix_1 (V (S i)) (V (S (S i)))) in M at 2.
    apply meet_swap in M. apply (meet_part (V j) (V (S j)) (V (S i)) (V (S (S i))) s 1); [lra|lra|exact M].
Qed.
(** around a corner, close to it, likewise *)
Lemma around i a b : k * cross (D i) (D (S i)) < 0 -> 0 < k * cross (D i) a -> 0 < k * cross (D i) b ->
  soon (fun e => misses (shift (V (S i)) e a) (shift (V (S i)) e b)).
Proof.
  intros C Ha Hb. set (d := D i) in *. apply soon_all. intros j J. destruct (edges i j J) as [[-> ->]|[[-> ->]|[[-> ->]|F]]].
  - apply soon_now. intros e E. apply (parted k d (V (S i))); try (rewrite cross_shift, cross_vv; nra); [rewrite cross_opp; fold d; rewrite cross_self; lra|rewrite cross_vv; lra].
  - apply soon_now. intros e E. apply (parted k d (V (S i))); try (rewrite cross_shift, cross_vv; nra); [rewrite cross_vv; lra|lra].
  - apply perturb; [right; apply Dist|]. intros (u & v & Hu & Hv & E). assert (E' : mix (V (S i)) (V (S (S i))) 0 = mix (V (S (S i))) (V (S (S (S i)))) v) by (rewrite <- E; apply pt_eq; unfold mix; cbn [X Y]; ring).
    destruct (Next (S i) 0 v ltac:(lra) Hv E'). lra.
  - apply perturb; [right; apply Dist|]. intros (u & v & Hu & Hv & E). apply F. exists 0, v. split; [lra|]. split; [exact Hv|]. rewrite <- E. apply pt_eq; unfold mix; cbn [X Y]; ring.
Qed.

(** ** All points that see the ring from one side have one winding number *)
Definition beside (i : nat) (e : R) : pt := shift (V (S i)) e (lean i).
Lemma beside_per i e : beside (i + n) e = beside i e.
Proof.
  unfold beside, lean. replace (S (S (i + n))) with (S (S i) + n)%nat by lia. replace (S (i + n)) with (S i + n)%nat by lia. rewrite !Per. reflexivity.
Qed.
Lemma beside_mod i e : beside (i mod n) e = beside i e.
Proof.
  rewrite (Nat.div_mod i n) at 2 by lia. rewrite Nat.add_comm, Nat.mul_comm. induction (i / n)%nat as [|m IH]; [f_equal; lia|]. replace (i mod n + S m * n)%nat with (i mod n + m * n + n)%nat by lia. rewrite beside_per. exact IH.
Qed.
Lemma walk : soon (fun e => forall i, winding (beside i e) = winding (beside 0 e)).
Proof.
  eapply soon_mono; [|apply (soon_all n (fun i e => misses (beside i e) (beside (S i) e)))].
  - intros e E H. cbv beta in H. assert (Q : forall i, (i <= n)%nat -> winding (beside i e) = winding (beside 0 e)).
    { induction i as [|i IH]; intros L; [reflexivity|]. rewrite <- IH by lia. symmetry. apply moving; [exact closed|apply H; lia]. }
    intros i. rewrite <- beside_mod. apply Q. assert (i mod n < n)%nat by (apply Nat.mod_upper_bound; lia). lia.
  - intros i I. pose proof (alongside i 0 (lean i) (lean (S i)) ltac:(lra) (proj2 (lean_ok i)) (fun _ => lean_onward i) (lean_back (S i))) as H.
    eapply soon_mono; [|exact H]. intros e _ M. cbv beta in M. rewrite mix_0 in M. exact M.
Qed.
(** from [x] the point [z] of the ring is in plain sight *)
Definition in_sight (x z : pt) : Prop := forall e, 0 < e <= 1 -> misses (shift z e (minus x z)) x.
(** and it is seen from the side [k]: on the edge after [V (S i)], short of its end; or in that
    corner, looking back along the edge before *)
Definition sees_edge (x : pt) (i : nat) (s : R) : Prop :=
  0 <= s < 1 /\ let z := mix (V (S i)) (V (S (S i))) s in
  in_sight x z /\ 0 < k * cross (D (S i)) (minus x z) /\ (s = 0 -> onward i (minus x z)).
Definition sees_corner (x : pt) (i : nat) : Prop :=
  in_sight x (V (S i)) /\ k * cross (D i) (D (S i)) < 0 /\ 0 < k * cross (D i) (minus x (V (S i))).
Lemma sees_edge_level x i s : sees_edge x i s -> soon (fun e => winding x = winding (beside 0 e)).
Proof.
  intros (Hs & Is & Hx & Hon). set (z := mix _ _ _) in *.
  pose proof (alongside i s (minus x z) (lean (S i)) Hs Hx Hon (lean_back (S i))) as H. fold z in H.
  destruct (soon_and _ _ walk H) as (h & Hh & A). exists (Rmin h 1). split; [apply Rmin_pos; lra|]. intros e E. pose proof (Rmin_l h 1). pose proof (Rmin_r h 1).
  destruct (A e ltac:(lra)) as [A1 A2]. rewrite <- (A1 (S i)). transitivity (winding (shift z e (minus x z))); [symmetry; apply moving; [exact closed|apply Is; lra]|].
  apply moving; [exact closed|exact A2].
Qed.
Lemma sees_corner_level x i : sees_corner x i -> soon (fun e => winding x = winding (beside 0 e)).
Proof.
  intros (Is & C & Hx). set (z := V (S i)) in *. pose proof (around i (minus x z) (lean i) C Hx (proj1 (lean_ok i))) as H. fold z in H.
  destruct (soon_and _ _ walk H) as (h & Hh & A). exists (Rmin h 1). split; [apply Rmin_pos; lra|]. intros e E. pose proof (Rmin_l h 1). pose proof (Rmin_r h 1).
  destruct (A e ltac:(lra)) as [A1 A2]. rewrite <- (A1 i). transitivity (winding (shift z e (minus x z))); [symmetry; apply moving; [exact closed|apply Is; lra]|].
  apply moving; [exact closed|exact A2].
Qed.
Definition sees (x : pt) : Prop := (exists i s, sees_edge x i s) \/ exists i, sees_corner x i.
Theorem one_level x y : sees x -> sees y -> winding x = winding y.
Proof.
  assert (Lv : forall z, sees z -> soon (fun e => winding z = winding (beside 0 e))) by (intros z [(i & s & H)|(i & H)]; [eapply sees_edge_level, H|eapply sees_corner_level, H]).
  intros Hx Hy. destruct (soon_and _ _ (Lv x Hx) (Lv y Hy)) as (h & Hh & A). destruct (A h ltac:(lra)) as [-> ->]. reflexivity.
Qed.
End Side.

(** ** The two levels *)
Definition up : pt := P2 0 1.
Definition down : pt := P2 0 (-1).
Lemma across i : X (V (S i)) <> X (V (S (S i))) -> exists x y, sees 1 x /\ sees (-1) y /\ winding x = (winding y + 1)%Z.
Proof.
  intros Nv. set (A := mix (V (S i)) (V (S (S i))) (1 / 2)). set (m := (S i mod n)%nat). assert (M : (m < n)%nat) by (apply Nat.mod_upper_bound; lia).
  assert (Cl : soon (fun h => forall j, (j < n)%nat -> j <> m -> ~ meet (shift A h down) (shift A h up) (V j) (V (S j)))).
  { apply soon_all. intros j J. destruct (Nat.eq_dec j m) as [E|D1]; [apply soon_now; intros; congruence|]. apply (soon_mono (fun h => ~ meet (shift A h down) (shift A h up) (V j) (V (S j)))); [auto|].
    apply perturb; [right; apply Dist|]. intros (u & v & Hu & Hv & E). assert (EA : mix A A u = A) by (apply pt_eq; unfold mix; cbn [X Y]; ring). rewrite EA in E. clear EA.
    destruct (edges_at i j J) as [[P Q]|[P|[[P Q]|F]]]; [rewrite P, Q in E|exact (D1 P)|rewrite P, Q in E|].
    - symmetry in E. destruct (Next i v (1 / 2) Hv ltac:(lra) E). lra.
    - destruct (Next (S i) (1 / 2) v ltac:(lra) Hv E). lra.
    - apply F. exists (1 / 2), v. split; [lra|]. split; [exact Hv|exact E]. }
  destruct Cl as (h & Hh & Cl). specialize (Cl h ltac:(lra)). set (a := shift A h down) in *. set (b := shift A h up) in *.
  set (d := D (S i)). assert (Xd : X d <> 0) by (unfold d, minus; cbn [X Y]; lra).
  assert (Em : V m = V (S i) /\ V (S m) = V (S (S i))) by (split; [apply vmod|apply vsmod]). destruct Em as [Em Em'].
  assert (dA : cross d (minus A (V (S i))) = 0) by (unfold A, d; rewrite cross_mix, cross_vv, cross_self; ring).
  assert (Du : cross d up = X d) by (unfold cross, up; cbn [X Y]; ring). assert (Dd : cross d down = - X d) by (unfold cross, down; cbn [X Y]; ring).
  assert (Sight : forall k w, (w = up \/ w = down) -> 0 < k * cross d w -> sees_edge k (shift A h w) i (1 / 2)).
  { intros k w W P. assert (Ew : forall e, minus (shift A e w) A = P2 (e * X w) (e * Y w)) by (intros e; apply pt_eq; unfold minus, shift; cbn [X Y]; ring).
    assert (Ec : cross d (minus (shift A h w) A) = h * cross d w) by (rewrite Ew; unfold cross; cbn [X Y]; ring).
    split; [lra|]. fold A. split; [|split; [fold d; rewrite Ec; nra|lra]].
    intros e E j J Mt. destruct (Nat.eq_dec j m) as [->|D1].
    - rewrite Em, Em' in Mt. revert Mt. apply (parted k d (V (S i))).
      + rewrite cross_shift, dA, Ec. assert (0 < e * (h * (k * cross d w))) by (apply Rmult_lt_0_compat; [lra|apply Rmult_lt_0_compat; lra]). lra.
      + rewrite cross_shift, dA. nra.
      + rewrite cross_vv. lra.
      + fold d. rewrite cross_self. lra.
    - apply (Cl j J D1). apply meet_swap in Mt. apply meet_swap.
      assert (I : exists s t, 0 <= s <= 1 /\ 0 <= t <= 1 /\ shift A e (minus (shift A h w) A) = mix a b s /\ shift A h w = mix a b t).
      { destruct W as [-> | ->]; [exists ((1 + e) / 2), 1|exists ((1 - e) / 2), 0]; (split; [lra|]); (split; [lra|]); (split; [|unfold a, b; apply pt_eq; unfold mix, shift, up, down; cbn [X Y]; ring]);
          rewrite Ew; unfold a, b; apply pt_eq; unfold mix, shift, up, down; cbn [X Y]; field. }
      destruct I as (s & t & Hs & Ht & E1 & E2). rewrite E1, E2 in Mt. exact (meet_part _ _ a b s t Hs Ht Mt). }
  assert (Wd : (winding b - winding a = turns (V (S i)) (V (S (S i))) b - turns (V (S i)) (V (S (S i))) a)%Z).
  { unfold winding. rewrite total_minus. rewrite (total_one n _ m M); [rewrite Em, Em'; reflexivity|]. intros j J D1.
    assert (Xab : X a = X b) by (unfold a, b, shift, up, down; cbn [X Y]; ring). rewrite (passing a b (V j) (V (S j))) by (try lra; apply Cl; assumption).
    unfold over. rewrite <- Xab. destruct (Rlt_dec (X a) (X (V (S j)))), (Rlt_dec (X a) (X (V j))); reflexivity. }
  assert (Xa : X a = (X (V (S i)) + X (V (S (S i)))) / 2) by (unfold a, A, shift, mix, down; cbn [X Y]; lra).
  assert (Xb : X b = (X (V (S i)) + X (V (S (S i)))) / 2) by (unfold b, A, shift, mix, up; cbn [X Y]; lra).
  assert (Ca : cross d (minus a (V (S i))) = - (h * X d)) by (unfold a; rewrite cross_shift, dA, Dd; ring).
  assert (Cb : cross d (minus b (V (S i))) = h * X d) by (unfold b; rewrite cross_shift, dA, Du; ring).
  assert (Xd' : X d = X (V (S (S i))) - X (V (S i))) by reflexivity. set (p := V (S i)) in *. set (q := V (S (S i))) in *. fold d in Wd. unfold turns in Wd. fold d in Wd. rewrite Ca, Cb in Wd.
  destruct (Rtotal_order (X d) 0) as [L|[L|L]]; [|contradiction|].
  - assert (Hd : 0 < h * - X d) by (apply Rmult_lt_0_compat; lra). exists a, b. split; [left; exists i, (1 / 2); apply Sight; [auto|rewrite Dd; lra]|]. split; [left; exists i, (1 / 2); apply Sight; [auto|rewrite Du; lra]|].
    dec. lia.
  - assert (Hd : 0 < h * X d) by (apply Rmult_lt_0_compat; lra). exists b, a. split; [left; exists i, (1 / 2); apply Sight; [auto|rewrite Du; lra]|]. split; [left; exists i, (1 / 2); apply Sight; [auto|rewrite Dd; lra]|].
    dec. lia.
Qed.
(** the westernmost corner *)
Definition west_corner (i : nat) : Prop := (forall j, X (V (S i)) <= X (V j)) /\ 0 < cross (D i) (D (S i)).
Lemma from_the_west i : west_corner i -> exists z, sees (-1) z /\ winding z = 0%Z.
Proof.
  intros [W C]. set (b := P2 (-1) 0). set (z := shift (V (S i)) 1 b). exists z.
  assert (Xz : X z = X (V (S i)) - 1) by (unfold z, b, shift; cbn [X Y]; lra). assert (Bz : minus z (V (S i)) = b) by (apply pt_eq; unfold z, b, minus, shift; cbn [X Y]; ring).
  assert (Is : in_sight z (V (S i))).
  { intros e E j J. apply (parted 1 up (V (S i))).
    - rewrite Bz, cross_shift, cross_vv. unfold cross, up, b. cbn [X Y]. lra.
    - rewrite Bz. unfold cross, up, b. cbn [X Y]. lra.
    - specialize (W j). unfold cross, up, minus. cbn [X Y]. lra.
    - specialize (W (S j)). unfold cross, up, minus. cbn [X Y]. lra. }
  split.
  - assert (Cb : forall d, cross d b = Y d) by (intros d; unfold cross, b; cbn [X Y]; ring).
    destruct (Rlt_le_dec (Y (D (S i))) 0) as [L|L].
    + left. exists i, 0. split; [lra|]. rewrite mix_0. split; [exact Is|]. rewrite Bz, Cb. split; [lra|]. intros _. split; [rewrite Cb; lra|intros F; lra].
    + right. exists i. split; [exact Is|]. split; [lra|]. rewrite Bz, Cb. enough (Y (D i) < 0) by lra. destruct (Rlt_le_dec (Y (D i)) 0) as [H|H]; [exact H|exfalso].
      pose proof (W i) as W1. pose proof (W (S (S i))) as W2. assert (X (D i) <= 0) by (unfold minus; cbn [X Y]; lra). assert (0 <= X (D (S i))) by (unfold minus; cbn [X Y]; lra).
      unfold cross in C. set (x1 := X (D i)) in *. set (y1 := Y (D i)) in *. set (x2 := X (D (S i))) in *. set (y2 := Y (D (S i))) in *. clearbody x1 y1 x2 y2. nra.
  - unfold winding. rewrite (total_ext n _ (fun _ => 0%Z)); [clear; induction n as [|m IH]; cbn [total]; lia|]. intros j J. pose proof (W j). pose proof (W (S j)). unfold turns. dec. reflexivity.
Qed.
(** a point from which the left side of the ring is seen is wound around once, one from which its
    right side is seen is not *)
Theorem two_sides x i : west_corner i -> (sees 1 x -> winding x = 1%Z) /\ (sees (-1) x -> winding x = 0%Z).
Proof.
  intros W. destruct (from_the_west i W) as (z & Sz & Wz).
  assert (St : exists j, X (V (S j)) <> X (V (S (S j)))).
  { destruct (Req_dec (X (V (S i))) (X (V (S (S i))))) as [E|E]; [|exists i; exact E]. exists (i + n - 1)%nat. replace (S (i + n - 1)) with (i + n)%nat by lia. rewrite Per. replace (S (i + n)) with (S i + n)%nat by lia. rewrite Per.
    intros E'. destruct W as [_ C]. unfold cross, minus in C. cbn [X Y] in C. rewrite <- E, <- E' in C. lra. }
  destruct St as (j & Nv). destruct (across j Nv) as (a & b & Sa & Sb & E).
  pose proof (one_level (-1) (or_intror eq_refl) b z Sb Sz) as E1. split; intros H.
  - rewrite (one_level 1 (or_introl eq_refl) x a H Sa). lia.
  - rewrite (one_level (-1) (or_intror eq_refl) x z H Sz). exact Wz.
Qed.
End Ring.
