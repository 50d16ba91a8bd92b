(** The area of a ring is the sum of the winding numbers of the fields of a grid, each times the size of its
    field.  So a simple ring with positive area has its inside on the left.  No code is modelled here. *)
From Coq Require Import ZArith Reals Bool List Lia Lra Psatz.
From Verif Require Import Jordan.
Import ListNotations.
Local Open Scope R_scope.

(** ** Sums *)
Fixpoint rsum (n : nat) (f : nat -> R) : R := match n with O => 0 | S m => rsum m f + f m end.
Lemma rsum_ext n f g : (forall i, (i < n)%nat -> f i = g i) -> rsum n f = rsum n g.
Proof. induction n as [|n IH]; intros H; cbn [rsum]; [reflexivity|]. rewrite IH by (intros; apply H; lia). rewrite H by lia. reflexivity. Qed.
Lemma rsum_plus n f g : rsum n (fun i => f i + g i) = rsum n f + rsum n g.
Proof. induction n as [|n IH]; cbn [rsum]; [ring|]. rewrite IH. ring. Qed.
Lemma rsum_scale n c f : rsum n (fun i => c * f i) = c * rsum n f.
Proof. induction n as [|n IH]; cbn [rsum]; [ring|]. rewrite IH. ring. Qed.
Lemma rsum_steps n f : rsum n (fun i => f (S i) - f i) = f n - f 0%nat.
Proof. induction n as [|n IH]; cbn [rsum]; [ring|]. rewrite IH. ring. Qed.
Lemma rsum_total n f : IZR (total n f) = rsum n (fun i => IZR (f i)).
Proof. induction n as [|n IH]; cbn [rsum total]; [reflexivity|]. rewrite plus_IZR, IH. reflexivity. Qed.
Fixpoint lsum {A} (l : list A) (g : A -> R) : R := match l with nil => 0 | a :: l => g a + lsum l g end.
Lemma lsum_ext {A} (l : list A) f g : (forall a, In a l -> f a = g a) -> lsum l f = lsum l g.
Proof. induction l as [|a l IH]; intros H; cbn [lsum]; [reflexivity|]. rewrite H by (left; reflexivity). rewrite IH by (intros; apply H; right; assumption). reflexivity. Qed.
Lemma lsum_scale {A} (l : list A) c g : lsum l (fun a => c * g a) = c * lsum l g.
Proof. induction l as [|a l IH]; cbn [lsum]; [ring|]. rewrite IH. ring. Qed.
Lemma lsum_minus {A} (l : list A) f g : lsum l (fun a => f a - g a) = lsum l f - lsum l g.
Proof. induction l as [|a l IH]; cbn [lsum]; [ring|]. rewrite IH. ring. Qed.
Lemma lsum_pos {A} (l : list A) g : (forall a, In a l -> 0 <= g a) -> 0 <= lsum l g.
Proof. induction l as [|a l IH]; intros H; cbn [lsum]; [lra|]. pose proof (H a (or_introl eq_refl)). pose proof (IH (fun x Hx => H x (or_intror Hx))). lra. Qed.
Lemma sum_swap {A} n (l : list A) (f : nat -> A -> R) : rsum n (fun i => lsum l (f i)) = lsum l (fun a => rsum n (fun i => f i a)).
Proof.
  induction l as [|a l IH]; cbn [lsum].
  - induction n as [|n IHn]; cbn [rsum]; [reflexivity|]. rewrite IHn. ring.
  - rewrite rsum_plus, IH. reflexivity.
Qed.

(** ** Ladders: strictly increasing lists and their gaps *)
Fixpoint climbs (l : list R) : Prop := match l with a :: ((b :: _) as t) => a < b /\ climbs t | _ => True end.
Fixpoint rungs (l : list R) : list (R * R) := match l with a :: ((b :: _) as t) => (a, b) :: rungs t | _ => nil end.
Lemma climbs_tail a l : climbs (a :: l) -> climbs l.
Proof. destruct l; [intros _; exact I|intros [_ H]; exact H]. Qed.
Lemma climbs_over l : forall a, climbs (a :: l) -> forall x, In x l -> a < x.
Proof. induction l as [|b l IH]; intros a H x Hx; [destruct Hx|]. destruct H as [H1 H2]. destruct Hx as [<-|Hx]; [exact H1|]. pose proof (IH b H2 x Hx). lra. Qed.
Lemma rungs_gap l : climbs l -> forall u v, In (u, v) (rungs l) -> In u l /\ In v l /\ u < v /\ forall x, In x l -> x <= u \/ v <= x.
Proof.
  induction l as [|a l IH]; intros C u v H; [destruct H|]. destruct l as [|b l]; [destruct H|]. pose proof (climbs_tail _ _ C) as C'. destruct H as [E|H].
  - inversion E. subst u v. destruct C as [L _]. split; [left; reflexivity|]. split; [right; left; reflexivity|]. split; [exact L|]. intros x [<-|[<-|Hx]]; [lra|lra|]. pose proof (climbs_over l b C' x Hx). lra.
  - destruct (IH C' u v H) as (A & B & L & G). split; [right; exact A|]. split; [right; exact B|]. split; [exact L|]. intros x [<-|Hx]; [|apply G, Hx]. pose proof (climbs_over _ a C u A). lra.
Qed.
Lemma climbing l : exists t, climbs t /\ forall x, In x t <-> In x l.
Proof.
  assert (Ins : forall x t, climbs t -> exists t', climbs t' /\ (forall y, In y t' <-> y = x \/ In y t) /\ match t' with a :: _ => a = x \/ exists r, t = a :: r | nil => False end).
  { intros x t. induction t as [|a t IH]; intros C.
    - exists [x]. split; [exact I|]. split; [intros y; cbn [In]; intuition congruence|left; reflexivity].
    - destruct (Rtotal_order x a) as [L|[E|L]].
      + exists (x :: a :: t). split; [split; [exact L|exact C]|]. split; [intros y; cbn [In]; intuition congruence|left; reflexivity].
      + subst a. exists (x :: t). split; [exact C|]. split; [intros y; cbn [In]; intuition congruence|left; reflexivity].
      + destruct (IH (climbs_tail _ _ C)) as (t' & C' & M & Hd). exists (a :: t'). split; [|split].
        * destruct t' as [|b t']; [exact I|]. split; [|exact C']. destruct Hd as [->|(r & ->)]; [exact L|]. apply C.
        * intros y. cbn [In]. rewrite M. intuition congruence.
        * right. exists t. reflexivity. }
  induction l as [|x l IH]; [exists nil; split; [exact I|tauto]|]. destruct IH as (t & C & M). destruct (Ins x t C) as (t' & C' & M' & _). exists t'. split; [exact C'|]. intros y. rewrite M', M. cbn [In]. intuition congruence.
Qed.
(** 1 at and after [x] *)
Definition past (x u : R) : R := if Rle_dec x u then 1 else 0.
Lemma ladder F l : climbs l -> forall x, In x l -> lsum (rungs l) (fun g => past x (fst g) * (F (snd g) - F (fst g))) = F (last l 0) - F x.
Proof.
  induction l as [|a l IH]; intros C x Hx; [destruct Hx|]. destruct l as [|b l].
  - destruct Hx as [->|[]]. cbn [rungs lsum last]. ring.
  - pose proof (climbs_tail _ _ C) as C'. specialize (IH C'). change (rungs (a :: b :: l)) with ((a, b) :: rungs (b :: l)). cbn [lsum fst snd]. change (last (a :: b :: l) 0) with (last (b :: l) 0). destruct Hx as [<-|Hx].
    + rewrite (lsum_ext _ _ (fun g => past b (fst g) * (F (snd g) - F (fst g)))); [rewrite (IH b (or_introl eq_refl)); unfold past; destruct (Rle_dec a a); lra|].
      intros [u v] Hg. destruct (rungs_gap _ C' u v Hg) as (Hu & _). cbn [fst snd]. destruct C as [L _]. destruct Hu as [<-|Hu].
      * unfold past. destruct (Rle_dec a b), (Rle_dec b b); lra.
      * pose proof (climbs_over l b C' u Hu). unfold past. destruct (Rle_dec a u), (Rle_dec b u); lra.
    + rewrite (IH x Hx). pose proof (climbs_over _ a C x Hx). unfold past. destruct (Rle_dec x a); lra.
Qed.

(** ** The grid *)
Definition line (p q : pt) (m : R) : R := Y p + (m - X p) * ((Y q - Y p) / (X q - X p)).
Section Area.
Variables (n : nat) (V : nat -> pt).
Hypothesis Cl : V n = V 0%nat.
Definition area2 : R := rsum n (fun i => cross (V i) (V (S i))).
Lemma area_trapezes : area2 = rsum n (fun i => (X (V i) - X (V (S i))) * (Y (V i) + Y (V (S i)))).
Proof.
  unfold area2. rewrite (rsum_ext n (fun i => cross (V i) (V (S i))) (fun i => (X (V i) - X (V (S i))) * (Y (V i) + Y (V (S i))) + (X (V (S i)) * Y (V (S i)) - X (V i) * Y (V i)))) by (intros i _; unfold cross; ring).
  rewrite rsum_plus, (rsum_steps n (fun i => X (V i) * Y (V i))), Cl. ring.
Qed.
(** the sign with which the edge [i] crosses the strip after [u] *)
Definition heads (u : R) (i : nat) : R := past (X (V (S i))) u - past (X (V i)) u.
Lemma heads_0 u : rsum n (heads u) = 0.
Proof. unfold heads. rewrite (rsum_steps n (fun i => past (X (V i)) u)), Cl. ring. Qed.
Lemma trapeze l i : climbs l -> In (X (V i)) l -> In (X (V (S i))) l ->
  (X (V i) - X (V (S i))) * (Y (V i) + Y (V (S i))) = lsum (rungs l) (fun g => 2 * (snd g - fst g) * (heads (fst g) i * line (V i) (V (S i)) ((fst g + snd g) / 2))).
Proof.
  intros C Hp Hq. set (p := V i) in *. set (q := V (S i)) in *. set (k := (Y q - Y p) / (X q - X p)). set (F := fun x => 2 * Y p * x + k * ((x - X p) * (x - X p))).
  rewrite (lsum_ext _ _ (fun g => past (X q) (fst g) * (F (snd g) - F (fst g)) - past (X p) (fst g) * (F (snd g) - F (fst g)))).
  - rewrite lsum_minus, !ladder by assumption. unfold F. destruct (Req_dec (X q) (X p)) as [E|E].
    + rewrite E. ring.
    + unfold k. field. lra.
  - intros [u v] _. cbn [fst snd]. unfold heads. fold p q. unfold line. fold k. unfold F. field.
Qed.
Lemma heads_turns u v i y : (forall j, X (V j) <= u \/ v <= X (V j)) -> u < v -> y <> line (V i) (V (S i)) ((u + v) / 2) ->
  IZR (turns (V i) (V (S i)) (P2 ((u + v) / 2) y)) = heads u i * (1 - past (line (V i) (V (S i)) ((u + v) / 2)) y).
Proof.
  intros G L N. set (m := (u + v) / 2) in *. assert (M : u < m < v) by (unfold m; lra). unfold heads. pose proof (G i) as Gp. pose proof (G (S i)) as Gq. set (p := V i) in *. set (q := V (S i)) in *.
  unfold turns, past. cbn [X Y]. destruct (Rle_dec (X q) u) as [Q|Q], (Rle_dec (X p) u) as [P|P].
  - destruct (Rlt_dec m (X p)); [lra|]. destruct (Rlt_dec m (X q)); [lra|]. ring.
  - destruct (Rlt_dec m (X p)); [|lra]. destruct (Rlt_dec m (X q)); [lra|].
    assert (C : cross (minus q p) (minus (P2 m y) p) = (X p - X q) * (line p q m - y)) by (unfold cross, minus, line; cbn [X Y]; field; lra).
    destruct (Rle_dec (line p q m) y) as [B|B].
    + destruct (Rlt_dec 0 _) as [D|D]; [exfalso; rewrite C in D; nra|ring].
    + destruct (Rlt_dec 0 _) as [D|D]; [ring|exfalso; apply D; rewrite C; apply Rmult_lt_0_compat; lra].
  - destruct (Rlt_dec m (X p)); [lra|]. destruct (Rlt_dec m (X q)); [|lra].
    assert (C : cross (minus q p) (minus (P2 m y) p) = (X q - X p) * (y - line p q m)) by (unfold cross, minus, line; cbn [X Y]; field; lra).
    destruct (Rle_dec (line p q m) y) as [B|B].
    + destruct (Rlt_dec _ 0) as [D|D]; [exfalso; rewrite C in D; nra|ring].
    + destruct (Rlt_dec _ 0) as [D|D]; [ring|exfalso; apply D; rewrite C; assert (0 < (X q - X p) * (line p q m - y)) by (apply Rmult_lt_0_compat; lra); lra].
  - destruct (Rlt_dec m (X p)); [|lra]. destruct (Rlt_dec m (X q)); [|lra]. ring.
Qed.
(** in one strip *)
Lemma strip_sum u v : (forall j, X (V j) <= u \/ v <= X (V j)) -> u < v ->
  exists l, climbs l /\ (forall i, (i < n)%nat -> In (line (V i) (V (S i)) ((u + v) / 2)) l) /\
    rsum n (fun i => heads u i * line (V i) (V (S i)) ((u + v) / 2)) = lsum (rungs l) (fun g => (snd g - fst g) * IZR (winding n V (P2 ((u + v) / 2) ((fst g + snd g) / 2)))).
Proof.
  intros G L. set (m := (u + v) / 2). set (h := fun i => line (V i) (V (S i)) m). destruct (climbing (map h (seq 0 n))) as (l & C & M). exists l.
  assert (In_l : forall i, (i < n)%nat -> In (h i) l) by (intros i I; apply M, in_map, in_seq; lia). split; [exact C|]. split; [exact In_l|].
  transitivity (rsum n (fun i => heads u i * (last l 0 - lsum (rungs l) (fun g => past (h i) (fst g) * (snd g - fst g))))).
  { apply rsum_ext. intros i I. rewrite (ladder (fun x => x) l C (h i) (In_l i I)). unfold h. ring. }
  transitivity (last l 0 * rsum n (heads u) - rsum n (fun i => lsum (rungs l) (fun g => heads u i * (past (h i) (fst g) * (snd g - fst g))))).
  { rewrite <- rsum_scale. replace (rsum n (fun i => last l 0 * heads u i) - rsum n (fun i => lsum (rungs l) (fun g => heads u i * (past (h i) (fst g) * (snd g - fst g))))) with
      (rsum n (fun i => last l 0 * heads u i) + (-1) * rsum n (fun i => lsum (rungs l) (fun g => heads u i * (past (h i) (fst g) * (snd g - fst g))))) by ring.
    rewrite <- rsum_scale, <- rsum_plus. apply rsum_ext. intros i _. rewrite lsum_scale. ring. }
  rewrite heads_0, sum_swap. replace (last l 0 * 0 - lsum (rungs l) (fun g => rsum n (fun i => heads u i * (past (h i) (fst g) * (snd g - fst g))))) with
    ((-1) * lsum (rungs l) (fun g => rsum n (fun i => heads u i * (past (h i) (fst g) * (snd g - fst g))))) by ring.
  rewrite <- lsum_scale. apply lsum_ext. intros [a b] Hg. cbn [fst snd]. destruct (rungs_gap l C a b Hg) as (_ & _ & Lab & Gap).
  unfold winding. rewrite rsum_total. rewrite (rsum_ext n (fun i => IZR (turns (V i) (V (S i)) (P2 m ((a + b) / 2)))) (fun i => heads u i + (-1) * (heads u i * past (h i) a))).
  - rewrite rsum_plus, heads_0, rsum_scale. rewrite (rsum_ext n (fun i => heads u i * (past (h i) a * (b - a))) (fun i => (b - a) * (heads u i * past (h i) a))) by (intros; ring). rewrite rsum_scale. ring.
  - intros i I. pose proof (Gap (h i) (In_l i I)) as Gi. unfold m. rewrite (heads_turns u v i _ G L); [fold m; fold (h i)|fold m; fold (h i); lra].
    unfold past. destruct (Rle_dec (h i) ((a + b) / 2)), (Rle_dec (h i) a); lra.
Qed.
(** not on the ring, and over no corner *)
Definition free_spot (z : pt) : Prop := (forall j, X z <> X (V j)) /\ misses n V z z.
Lemma spot_free u v a b l : (forall j, X (V j) <= u \/ v <= X (V j)) -> u < v -> climbs l -> (forall i, (i < n)%nat -> In (line (V i) (V (S i)) ((u + v) / 2)) l) -> In (a, b) (rungs l) ->
  free_spot (P2 ((u + v) / 2) ((a + b) / 2)).
Proof.
  intros G L C In_l Hg. destruct (rungs_gap l C a b Hg) as (_ & _ & Lab & Gap). split; [intros j; cbn [X]; destruct (G j); lra|].
  intros i I (s & t & Hs & Ht & E). pose proof (Gap _ (In_l i I)) as Gi. set (m := (u + v) / 2) in *. pose proof (f_equal X E) as Ex. pose proof (f_equal Y E) as Ey. unfold mix in Ex, Ey. cbn [X Y] in Ex, Ey.
  set (p := V i) in *. set (q := V (S i)) in *. assert (Em : (1 - t) * X p + t * X q = m) by lra. assert (Ey' : (1 - t) * Y p + t * Y q = (a + b) / 2) by lra.
  destruct (Req_dec (X q) (X p)) as [D|D].
  - rewrite D in Em. pose proof (G i) as Gp. fold p in Gp. assert (X p = m) by lra. unfold m in *. lra.
  - assert (line p q m = (a + b) / 2) as K by (rewrite <- Ey'; unfold line; rewrite <- Em; field; lra). rewrite K in Gi. lra.
Qed.
Lemma lsum_app {A} (l1 l2 : list A) g : lsum (l1 ++ l2) g = lsum l1 g + lsum l2 g.
Proof. induction l1 as [|a l1 IH]; cbn [lsum app]; [ring|]. rewrite IH. ring. Qed.
Lemma lsum_map {A B} (h : A -> B) l g : lsum (map h l) g = lsum l (fun a => g (h a)).
Proof. induction l as [|a l IH]; cbn [lsum map]; [reflexivity|]. rewrite IH. reflexivity. Qed.
Hypothesis Rep : forall j, exists i, (i < n)%nat /\ V j = V i.
Theorem area_grid : exists fields : list (R * pt), area2 = lsum fields (fun f => fst f * IZR (winding n V (snd f))) /\ forall w z, In (w, z) fields -> 0 < w /\ free_spot z.
Proof.
  destruct (climbing (map (fun i => X (V i)) (seq 0 n))) as (xs & C & M).
  assert (In_x : forall j, In (X (V j)) xs) by (intros j; destruct (Rep j) as (i & I & ->); apply M, (in_map (fun i => X (V i))), in_seq; lia).
  rewrite area_trapezes. rewrite (rsum_ext n _ (fun i => lsum (rungs xs) (fun g => 2 * (snd g - fst g) * (heads (fst g) i * line (V i) (V (S i)) ((fst g + snd g) / 2))))) by (intros i _; apply trapeze; [exact C|apply In_x|apply In_x]).
  rewrite sum_swap. assert (G : forall u v, In (u, v) (rungs xs) -> u < v /\ forall j, X (V j) <= u \/ v <= X (V j)) by (intros u v H; destruct (rungs_gap xs C u v H) as (_ & _ & L & Gp); split; [exact L|intros j; apply Gp, In_x]).
  clear C M In_x. induction (rungs xs) as [|[u v] r IH].
  - exists nil. split; [reflexivity|intros w z []].
  - destruct (IH (fun u v H => G u v (or_intror H))) as (fs & E & P). clear IH. destruct (G u v (or_introl eq_refl)) as [L Gp]. destruct (strip_sum u v Gp L) as (l & C & In_l & Es).
    exists (map (fun g => (2 * (v - u) * (snd g - fst g), P2 ((u + v) / 2) ((fst g + snd g) / 2))) (rungs l) ++ fs). split.
    + rewrite lsum_app, lsum_map. cbn [lsum fst snd]. rewrite E. f_equal. rewrite rsum_scale, Es, <- lsum_scale. apply lsum_ext. intros [a b] _. cbn [fst snd]. ring.
    + intros w z H. apply in_app_iff in H. destruct H as [H|H]; [|apply P, H]. apply in_map_iff in H. destruct H as ([a b] & Eq & H). cbn [fst snd] in Eq. inversion Eq. subst w z.
      destruct (rungs_gap l C a b H) as (_ & _ & Lab & _). split; [apply Rmult_lt_0_compat; lra|]. exact (spot_free u v a b l Gp L C In_l H).
Qed.
Corollary area_pos : (forall z, free_spot z -> (0 <= winding n V z)%Z) -> 0 <= area2.
Proof.
  intros H. destruct area_grid as (fs & -> & P). apply lsum_pos. intros [w z] Hf. cbn [fst snd]. destruct (P w z Hf) as [Pw Fz]. pose proof (IZR_le _ _ (H z Fz)). nra.
Qed.

End Area.

(** ** Looking up from a free spot of a simple ring *)
Lemma total_zero m f : (forall i, (i < m)%nat -> f i = 0%Z) -> total m f = 0%Z.
Proof. induction m as [|m IH]; intros H; cbn [total]; [reflexivity|]. rewrite IH by (intros; apply H; lia). rewrite H by lia. reflexivity. Qed.
Lemma total_some m f : total m f <> 0%Z -> exists i, (i < m)%nat /\ f i <> 0%Z.
Proof.
  induction m as [|m IH]; cbn [total]; intros H; [congruence|]. destruct (Z.eq_dec (f m) 0) as [E|E]; [|exists m; split; [lia|exact E]].
  destruct IH as (i & I & F); [lia|]. exists i. split; [lia|exact F].
Qed.
Section Look.
Variables (n : nat) (V : nat -> pt).
Hypothesis N3 : (3 <= n)%nat.
Hypothesis Per : forall i, V (i + n)%nat = V i.
Variable z : pt.
Hypothesis Fr : free_spot n V z.
Definition above (i : nat) (y : R) : Prop := exists t, 0 < t < 1 /\ X (mix (V i) (V (S i)) t) = X z /\ Y (mix (V i) (V (S i)) t) = y /\ Y z < y.
Lemma on_edge i t : 0 <= t <= 1 -> X (mix (V i) (V (S i)) t) = X z -> 0 < t < 1.
Proof.
  intros T E. destruct Fr as [Nx _]. pose proof (Nx i) as A. pose proof (Nx (S i)) as B. unfold mix in E. cbn [X Y] in E.
  destruct (Req_dec t 0) as [->|]; [exfalso; apply A; lra|]. destruct (Req_dec t 1) as [->|]; [exfalso; apply B; lra|]. lra.
Qed.
Lemma above_unique i x y : above i x -> above i y -> x = y.
Proof.
  intros (t & T & E1 & E2 & _) (r & Q & F1 & F2 & _). unfold mix in *. cbn [X Y] in *. assert (K : (t - r) * (X (V (S i)) - X (V i)) = 0) by lra.
  apply Rmult_integral in K. destruct K as [K|K]; [replace r with t in F2 by lra; congruence|]. exfalso. apply (proj1 Fr i). replace (X (V (S i))) with (X (V i)) in E1 by lra. lra.
Qed.
Lemma turns_above i : turns (V i) (V (S i)) z <> 0%Z -> exists y, above i y.
Proof.
  intros H. destruct Fr as [Nx _]. pose proof (Nx i) as A. pose proof (Nx (S i)) as B. unfold turns in H. set (p := V i) in *. set (q := V (S i)) in *.
  destruct (Rlt_dec (X z) (X p)) as [P|P], (Rlt_dec (X z) (X q)) as [Q|Q]; try (exfalso; apply H; reflexivity).
  - destruct (Rlt_dec 0 _) as [K|K]; [|exfalso; apply H; reflexivity]. destruct (lift q p z ltac:(left; lra)) as (t & T & Ex & Ec). rewrite cross_flip in Ec. rewrite mix_flip in Ex, Ec.
    exists (Y (mix p q (1 - t))), (1 - t). split; [apply (on_edge i); [lra|exact Ex]|]. split; [exact Ex|]. split; [reflexivity|]. fold p q. destruct (Rlt_le_dec (Y z) (Y (mix p q (1 - t)))) as [L|L]; [exact L|exfalso]. nra.
  - destruct (Rlt_dec _ 0) as [K|K]; [|exfalso; apply H; reflexivity]. destruct (lift p q z ltac:(left; lra)) as (t & T & Ex & Ec).
    exists (Y (mix p q t)), t. split; [apply (on_edge i); [lra|exact Ex]|]. split; [exact Ex|]. split; [reflexivity|]. fold p q. destruct (Rlt_le_dec (Y z) (Y (mix p q t))) as [L|L]; [exact L|exfalso]. nra.
Qed.
Lemma lowest : (exists i y, (i < n)%nat /\ above i y) -> exists i y, (i < n)%nat /\ above i y /\ forall j x, (j < n)%nat -> above j x -> y <= x.
Proof.
  assert (Un := above_unique). clear N3 Per Fr. induction n as [|m IH]; intros (i & y & I & A); [lia|].
  destruct (Classical_Prop.classic (exists i y, (i < m)%nat /\ above i y)) as [H|H].
  - destruct (IH H) as (k & x & K & B & L). destruct (Classical_Prop.classic (exists w, above m w /\ w < x)) as [(w & W & Lt)|N].
    + exists m, w. split; [lia|]. split; [exact W|]. intros j v J Av. destruct (Nat.eq_dec j m) as [->|Nj]; [rewrite (Un m v w Av W); lra|]. pose proof (L j v ltac:(lia) Av). lra.
    + exists k, x. split; [lia|]. split; [exact B|]. intros j v J Av. destruct (Nat.eq_dec j m) as [->|Nj]; [|apply (L j v); [lia|exact Av]]. destruct (Rlt_le_dec v x) as [Lt|Le]; [exfalso; apply N; exists v; auto|exact Le].
  - exists i, y. split; [exact I|]. split; [exact A|]. intros j v J Av. destruct (Nat.eq_dec j i) as [->|Nj]; [rewrite (Un i v y Av A); lra|]. exfalso. apply H.
    destruct (Nat.eq_dec j m) as [->|Nm]; [exists i, y|exists j, v]; (split; [lia|assumption]).
Qed.
Theorem look_up : winding n V z = 0%Z \/ sees n V 1 z \/ sees n V (-1) z.
Proof.
  destruct (Z.eq_dec (winding n V z) 0) as [E|E]; [left; exact E|right].
  destruct lowest as (i & y & I & (t & T & Ex & Ey & Ly) & Low).
  { destruct (total_some _ _ E) as (i & I & H). destruct (turns_above i H) as (y & A). exists i, y. auto. }
  set (w := mix (V i) (V (S i)) t) in *. set (i' := (i + n - 1)%nat). assert (E1 : V (S i') = V i) by (unfold i'; replace (S (i + n - 1)) with (i + n)%nat by lia; apply Per).
  assert (E2 : V (S (S i')) = V (S i)) by (unfold i'; replace (S (S (i + n - 1))) with (S i + n)%nat by lia; apply Per).
  assert (Is : in_sight n V z w).
  { intros e He j J (s & r & Hs & Hr & Em). pose proof (f_equal X Em) as Mx. pose proof (f_equal Y Em) as My. unfold mix at 1 in Mx. unfold mix at 1 in My. unfold shift, minus in Mx, My. cbn [X Y] in Mx, My.
    set (x := mix (V j) (V (S j)) r) in *. assert (Xx : X x = X z) by (rewrite <- Mx, Ex; ring). assert (Yx : Y x = Y z + (1 - s) * (1 - e) * (y - Y z)) by (rewrite <- My, <- Ey; ring).
    pose proof (on_edge j r Hr Xx) as R1. assert (B : 0 <= (1 - s) * (1 - e) < 1) by nra. destruct (Req_dec ((1 - s) * (1 - e)) 0) as [Z0|Z0].
    - apply (proj2 Fr j J). exists 0, r. split; [lra|]. split; [exact Hr|]. fold x. rewrite mix_0. rewrite Z0 in Yx. apply pt_eq; lra.
    - assert (P : 0 < (1 - s) * (1 - e) * (y - Y z)) by (apply Rmult_lt_0_compat; lra). assert (Q : (1 - s) * (1 - e) * (y - Y z) < 1 * (y - Y z)) by (apply Rmult_lt_compat_r; lra).
      assert (Ab : above j (Y x)) by (exists r; split; [exact R1|]; split; [exact Xx|]; split; [reflexivity|lra]). pose proof (Low j (Y x) J Ab). lra. }
  assert (Cr : cross (minus (V (S (S i'))) (V (S i'))) (minus z w) = (X (V (S i)) - X (V i)) * (Y z - y)) by (rewrite E1, E2; unfold cross, minus; cbn [X Y]; rewrite Ex, Ey; ring).
  assert (Nd : X (V (S i)) <> X (V i)) by (intros D; apply (proj1 Fr i); unfold w, mix in Ex; cbn [X Y] in Ex; rewrite D in Ex; lra).
  assert (See : forall k, 0 < k * ((X (V (S i)) - X (V i)) * (Y z - y)) -> sees n V k z).
  { intros k K. left. exists i', t. split; [lra|]. cbv zeta. replace (mix (V (S i')) (V (S (S i'))) t) with w by (rewrite E1, E2; reflexivity). rewrite Cr. split; [exact Is|]. split; [exact K|lra]. }
  destruct (Rtotal_order (X (V (S i))) (X (V i))) as [L|[L|L]]; [left|contradiction|right]; apply See; nra.
Qed.
End Look.
