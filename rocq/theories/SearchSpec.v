(** What the search returns: a path, the shortest one up to rounding, or an error exactly when
    there is none. *)
From Coq Require Import ZArith Reals Bool List Lia Lra Psatz Permutation.
From Flocq Require Import Core.
From Flocq Require Import BinarySingleNaN Plus_error Relative.
From Verif Require Import Base F64 Coordinate Segment SpecGeom F64Facts CoordinateFacts Graph GraphFacts Overlay OverlayFacts
  ShortestPath DistFacts SearchFacts.
Import ListNotations.
Local Open Scope R_scope.

(** ** Vocabulary *)
(** the points [u :: l] form a route to [t] along neighbour lists *)
Fixpoint linked (sg : sgraph) (u : coord) (l : list coord) (t : coord) : Prop :=
  match l with [] => u = t | v :: l' => joined sg u v /\ linked sg v l' t end.
(** the exact length of a route, in millionths of a degree *)
Definition edge_real (sg : sgraph) (u v : coord) : R :=
  match sg_crossing sg u v with Ok f => edge_length f u v | _ => 0 end.
Fixpoint route_length (sg : sgraph) (u : coord) (l : list coord) : R :=
  match l with [] => 0 | v :: l' => edge_real sg u v + route_length sg v l' end.
(** the same length summed up in doubles from [d] on *)
Fixpoint adds_up (sg : sgraph) (u : coord) (d : f64) (l : list coord) (d' : f64) : Prop :=
  match l with [] => d' = d | v :: l' => exists e, steps sg u v e /\ adds_up sg v (fadd d e) l' d' end.
(** no element comes before the one on top; queues with other than finite priorities may do anything *)
Definition minimal (w : f64) (pick : nat -> list helem -> nat) : Prop := forall k heap x0,
  In x0 heap -> (forall y, In y heap -> is_finite (priority w y) = true) ->
  forall y, In y heap -> fltb (priority w y) (priority w (nth (pick k heap mod length heap) heap x0)) = false.

(** ** Rounding of sums *)
Definition uu : R := 1 / 9007199254740992.
Lemma rnd_sum x y : generic_format radix2 (SpecFloat.fexp 53 1024) x -> generic_format radix2 (SpecFloat.fexp 53 1024) y ->
  0 <= x + y -> (x + y) * (1 - uu) <= rnd (x + y) <= (x + y) * (1 + uu).
Proof.
  intros Fx Fy H. unfold rnd. change (SpecFloat.fexp 53 1024) with (FLT_exp (-1074) 53) in *.
  destruct (@FLT_plus_error_N_ex radix2 (-1074) 53 eq_refl (fun x => negb (Z.even x)) x y Fx Fy) as (eps & Be & E).
  change (ZnearestE) with (Znearest (fun x => negb (Z.even x))). rewrite E. unfold u_ro in Be. change (bpow radix2 (- (53) + 1)) with (/ 4503599627370496) in Be.
  assert (Be' : Rabs eps <= uu).
  { eapply Rle_trans; [exact Be|]. unfold uu. apply Rmult_le_reg_r with (1 + / 2 * / 4503599627370496); [lra|].
    unfold Rdiv at 1. rewrite Rmult_assoc, Rinv_l by lra. lra. }
  apply Rabs_le_inv in Be'. split; apply Rmult_le_compat_l; lra.
Qed.
Lemma format_V x : generic_format radix2 (SpecFloat.fexp 53 1024) (V x).
Proof. apply generic_format_B2R. Qed.

Lemma cylinder_one a b : ngeo a -> ngeo b -> cylinder a b = 0 \/ 1 <= cylinder a b.
Proof.
  intros A B. destruct (cylinder_some a b) as (k & E). rewrite E, apart_dot.
  match goal with |- context [IZR ?z] => remember z as n eqn:En end. destruct (Z.le_gt_cases n 0) as [L|L].
  - left. apply sqrt_neg. apply (IZR_le n 0 L).
  - right. rewrite <- sqrt_1. apply sqrt_le_1_alt. apply (IZR_le 1). lia.
Qed.

Section Spec.
Variables (sg : sgraph) (s t : coord) (radius : f64) (dom : list coord).
Hypotheses (U : usable sg dom) (Is : In s dom) (Gt : ngeo t).
Notation core := (core sg s t radius dom).
Notation front := (front sg s t radius).

(** ** Start *)
Definition start (h : f64) : sstate := mkSS [mkH s f_0 h] [] [].
Lemma start_core h : heuristic_distance s t = Ok h -> core (start h).
Proof.
  intros E. constructor; unfold start; cbn [ss_heap ss_prev ss_dist assoc map].
  - constructor.
  - intros v d H. discriminate H.
  - intros v u H. discriminate H.
  - intros x [<-|[]]. cbn [h_node h_dist h_heur]. split; [exact Is|]. destruct zero_amount as [A B]. split; [exact A|]. split; [exact E|].
    exists f_0. split; [left; auto|lra].
  - intros v u H. discriminate H.
Qed.
Lemma start_front h : front (start h) None.
Proof.
  intros u du [[-> ->]|[N H]]; [|discriminate H]. left. exists (mkH s f_0 h). split; [left; reflexivity|]. split; reflexivity.
Qed.

(** ** Routes *)
Lemma linked_app u l v l' w : linked sg u l v -> linked sg v l' w -> linked sg u (l ++ l') w.
Proof. revert u. induction l as [|x l IH]; intros u H K; [cbn in *; subst; exact K|]. destruct H as [J H]. split; [exact J|apply (IH _ H K)]. Qed.
Lemma adds_up_app u d l v d' l' d'' : adds_up sg u d l d' -> linked sg u l v -> adds_up sg v d' l' d'' -> adds_up sg u d (l ++ l') d''.
Proof.
  revert u d. induction l as [|x l IH]; intros u d A L K; cbn in *; [subst; exact K|]. destruct A as (e & S & A). exists e. split; [exact S|].
  apply (IH _ _ A (proj2 L) K).
Qed.
Lemma linked_dom u l v : In u dom -> linked sg u l v -> In v dom /\ forall x, In x l -> In x dom.
Proof.
  revert u. induction l as [|x l IH]; intros u I H; [cbn in H; subst; split; [exact I|intros x []]|]. destruct H as [J H].
  destruct (joined_dom sg dom U u x I J) as (Ix & _). destruct (IH x Ix H) as [A B]. split; [exact A|]. intros y [<-|Iy]; auto.
Qed.

Lemma back_route st u l : core st -> back s (ss_prev st) u l -> exists l', l = s :: l' /\ linked sg s l' u /\
  (forall v, In v l' -> within s radius v) /\
  forall du, cur s (ss_dist st) u du -> exists d', adds_up sg s f_0 l' d' /\ V d' <= V du /\ amount d'.
Proof.
  intros C B. induction B as [|v u l N A B (l' & -> & L & W & D)].
  - exists []. split; [reflexivity|]. split; [reflexivity|]. split; [intros v []|]. intros du Cu. exists f_0. split; [reflexivity|].
    destruct zero_amount as [Z0 Z1]. split; [|exact Z0]. destruct Cu as [[_ ->]|[K _]]; [lra|congruence].
  - exists (l' ++ [v]). split; [reflexivity|]. destruct (c_prev _ _ _ _ _ _ C v u A) as (Iu & J & du & e & dv & Cu & Se & Av & Le).
    split; [exact (linked_app _ _ _ [v] v L (conj J eq_refl))|]. split.
    { intros x I. apply in_app_or in I. destruct I as [I|[<-|[]]]; [auto|]. exact (proj1 (proj2 (proj2 (c_dist _ _ _ _ _ _ C v dv Av)))). }
    intros dv' [[-> _]|[_ Av']]; [congruence|]. assert (dv' = dv) as -> by congruence.
    destruct (D du Cu) as (d' & Ad & Ld & Am). exists (fadd d' e).
    destruct (U u Iu) as [Gu _]. destruct (joined_dom sg dom U u v Iu J) as (_ & Gv & _). destruct (steps_stride _ _ _ _ Gu Gv Se) as [Te _].
    split; [|split].
    + apply (adds_up_app s f_0 l' u d' [v] _ Ad L). exists e. split; [exact Se|reflexivity].
    + eapply Rle_trans; [|exact Le]. apply fadd_mono; [exact Am| |exact Te|exact Ld]. exact (cur_amount _ _ _ _ _ _ _ _ C Cu).
    + apply (fadd_amount d' e Am Te).
Qed.

(** every route from [u] passes through the queue *)
Lemma through_queue st : core st -> front st None -> forall l u du D, In u dom -> cur s (ss_dist st) u du -> amount D -> V du <= V D ->
  linked sg u l t -> Forall (within s radius) l ->
  exists l1 l2 y D', l = l1 ++ l2 /\ In y (ss_heap st) /\ linked sg u l1 (h_node y) /\ linked sg (h_node y) l2 t /\
    adds_up sg u D l1 D' /\ amount D' /\ V (h_dist y) <= V D'.
Proof.
  intros C F. induction l as [|v l IH]; intros u du D Iu Cu Am Le L W.
  - destruct (F u du Cu) as [(y & Iy & Ny & Vy)|[[N _]|[]]]; [|cbn in L; congruence].
    exists [], [], y, D. rewrite Ny. repeat (split; [first [reflexivity|assumption]|]). lra.
  - destruct (F u du Cu) as [(y & Iy & Ny & Vy)|[[N Fi]|[]]].
    { exists [], (v :: l), y, D. rewrite Ny. repeat (split; [first [reflexivity|assumption]|]). lra. }
    destruct L as [J L]. inversion W as [|? ? W1 W2]; subst. destruct (joined_dom sg dom U u v Iu J) as (Iv & Gv & e & Se).
    destruct (U u Iu) as [Gu _]. destruct (steps_stride _ _ _ _ Gu Gv Se) as [Te _].
    destruct (fadd_amount D e Am Te) as (AD & VD & _).
    assert (Nx : exists dv, cur s (ss_dist st) v dv /\ V dv <= V (fadd D e)).
    { destruct (coord_dec v s) as [->|Nv].
      - exists f_0. split; [left; auto|]. destruct zero_amount as [_ ->]. destruct AD as [_ AD]. lra.
      - destruct (Fi v e J Se W1 Nv) as (dv & Av & Lv). exists dv. split; [right; auto|]. eapply Rle_trans; [exact Lv|].
        apply fadd_mono; [exact (cur_amount _ _ _ _ _ _ _ _ C Cu)|exact Am|exact Te|exact Le]. }
    destruct Nx as (dv & Cv & Lv). destruct (IH v dv (fadd D e) Iv Cv AD Lv L W2) as (l1 & l2 & y & D' & -> & Iy & L1 & L2 & A1 & AD' & Ly).
    exists (v :: l1), l2, y, D'. split; [reflexivity|]. split; [exact Iy|]. split; [split; assumption|]. split; [exact L2|].
    split; [exists e; split; assumption|]. split; assumption.
Qed.

(** ** The result, for any choice of the queue *)
Definition reachable : Prop := exists l, linked sg s l t /\ Forall (within s radius) l.

Definition bound : nat := S (measure dom (start f_0)).
Lemma search_terminates pick fuel : (bound <= fuel)%nat -> search_path fuel pick sg s t radius <> None.
Proof.
  intros L. unfold search_path. destruct (U s Is) as [Gs _]. destruct (heuristic_ok s t Gs Gt) as (h & E & _). rewrite E.
  fold (start h).
  destruct (search_ok sg s t radius dom U Is Gt pick fuel 0 (start h) (start_core h E) (start_front h)) as [A B].
  destruct (search fuel 0 pick sg s t radius (start h)) as [r|] eqn:R.
  - destruct (B r eq_refl) as (st' & -> & [(C & F & Eh)|(st0 & k0 & x & (C & F & _ & Ix & Nx) & Ep & Ed)]).
    + destruct (coord_dec t s) as [->|N]; [cbn [walk_back]; rewrite coord_eqb_refl; intros H; discriminate H|].
      destruct (assoc t (ss_prev st')) as [u|] eqn:At.
      * destruct (c_root _ _ _ _ _ _ C t u At) as (l & Bl). rewrite (walk_back_enough s _ _ _ _ Bl (c_keys _ _ _ _ _ _ C)). intros H. discriminate H.
      * rewrite (walk_back_none s _ _ _ _ N At). intros H. discriminate H.
    + rewrite Ep. destruct (coord_dec t s) as [->|N]; [cbn [walk_back]; rewrite coord_eqb_refl; intros H; discriminate H|].
      destruct (assoc t (ss_prev st0)) as [u|] eqn:At.
      * destruct (c_root _ _ _ _ _ _ C t u At) as (l & Bl). rewrite (walk_back_enough s _ _ _ _ Bl (c_keys _ _ _ _ _ _ C)). intros H. discriminate H.
      * rewrite (walk_back_none s _ _ _ _ N At). intros H. discriminate H.
  - elim (A L). reflexivity.
Qed.

Lemma search_result pick fuel r : search_path fuel pick sg s t radius = Some r ->
  (r = Throw NoPath /\ ~ reachable) \/
  exists l d st x k, r = Ok (s :: l) /\ linked sg s l t /\ Forall (within s radius) l /\ NoDup (s :: l) /\
    adds_up sg s f_0 l d /\ amount d /\ stopped sg s t radius dom pick st k x /\ V d <= V (h_dist x).
Proof.
  unfold search_path. destruct (U s Is) as [Gs _]. destruct (heuristic_ok s t Gs Gt) as (h & E & _). rewrite E. fold (start h).
  destruct (search_ok sg s t radius dom U Is Gt pick fuel 0 (start h) (start_core h E) (start_front h)) as [_ B].
  destruct (search fuel 0 pick sg s t radius (start h)) as [r0|] eqn:R; [|intros H; discriminate H].
  destruct (B r0 eq_refl) as (st' & -> & [(C & F & Eh)|(st0 & k0 & x & St & Ep & Ed)]).
  - destruct (coord_dec t s) as [Et|N].
    { exfalso. destruct (F s f_0 (or_introl (conj eq_refl eq_refl))) as [(y & Iy & _)|[[N _]|[]]]; [rewrite Eh in Iy; destruct Iy|congruence]. }
    destruct (assoc t (ss_prev st')) as [u|] eqn:At.
    { exfalso. destruct (c_prev _ _ _ _ _ _ C t u At) as (_ & _ & _ & _ & dv & _ & _ & Av & _).
      destruct (F t dv (or_intror (conj N Av))) as [(y & Iy & _)|[[K _]|[]]]; [rewrite Eh in Iy; destruct Iy|congruence]. }
    rewrite (walk_back_none s _ _ _ _ N At). intros H. inversion H; subst r. left. split; [reflexivity|]. intros (l & L & W).
    destruct zero_amount as [Z0 _].
    destruct (through_queue st' C F l s f_0 f_0 Is (or_introl (conj eq_refl eq_refl)) Z0 (Rle_refl _) L W) as (_ & _ & y & _ & _ & Iy & _).
    rewrite Eh in Iy. destruct Iy.
  - rewrite Ep. pose proof St as (C & F & _ & Ix & Nx).
    destruct (c_heap _ _ _ _ _ _ C x Ix) as (_ & _ & _ & dt & Ct & Lt). rewrite Nx in Ct.
    assert (Bk : exists l, back s (ss_prev st0) t l).
    { destruct Ct as [[-> _]|[N At]]; [exists [s]; constructor|].
      destruct (c_dist _ _ _ _ _ _ C t dt At) as (_ & _ & _ & u & Au). exact (c_root _ _ _ _ _ _ C t u Au). }
    destruct Bk as (l & Bl). rewrite (walk_back_enough s _ _ _ _ Bl (c_keys _ _ _ _ _ _ C)), app_nil_r. intros H. inversion H; subst r.
    right. pose proof (back_nodup s _ _ _ Bl) as Nd. destruct (back_route st0 t l C Bl) as (l' & -> & L & W & D).
    destruct (D dt Ct) as (d & Ad & Ld & Am). exists l', d, st0, x, k0. split; [reflexivity|]. split; [exact L|].
    split; [apply Forall_forall; exact W|]. split; [exact Nd|]. split; [exact Ad|]. split; [exact Am|]. split; [exact St|lra].
Qed.

(** ** Lengths in doubles and in reals *)
Lemma steps_real u v e : ngeo u -> ngeo v -> steps sg u v e -> measures e (edge_real sg u v).
Proof.
  intros Gu Gv S. destruct (steps_stride _ _ _ _ Gu Gv S) as (_ & f & Ef & M). unfold edge_real. rewrite Ef, edge_length_sym. exact M.
Qed.
Lemma edge_real_pos u v : 0 <= edge_real sg u v.
Proof. unfold edge_real. destruct (sg_crossing sg u v); [apply edge_length_pos|lra|lra]. Qed.
Lemma route_pos l : forall u, 0 <= route_length sg u l.
Proof. induction l as [|v l IH]; intros u; cbn [route_length]; [lra|]. pose proof (edge_real_pos u v). pose proof (IH v). lra. Qed.

Lemma measures_bounds d r : measures d r -> micro * r * (1 - u5) <= V d <= micro * r * (1 + u5).
Proof. intros (_ & _ & H). apply Rabs_le_inv in H. lra. Qed.

Lemma adds_up_bounds l : forall u v d d', In u dom -> linked sg u l v -> amount d -> adds_up sg u d l d' ->
  amount d' /\
  (V d + micro * route_length sg u l * (1 - u5)) * (1 - uu) ^ length l <= V d' <=
  (V d + micro * route_length sg u l * (1 + u5)) * (1 + uu) ^ length l.
Proof.
  induction l as [|x l IH]; intros u v d d' Iu L Am A; cbn [length pow route_length].
  - cbn in A. subst d'. split; [exact Am|]. lra.
  - destruct L as [J L]. destruct A as (e & Se & A). destruct (joined_dom sg dom U u x Iu J) as (Ix & Gx & _). destruct (U u Iu) as [Gu _].
    pose proof (steps_real u x e Gu Gx Se) as M. destruct (measures_bounds _ _ M) as [Ml Mu].
    destruct (fadd_amount d e Am (measures_stride _ _ M)) as (Am' & E & _).
    destruct (IH x v (fadd d e) d' Ix L Am' A) as (Am'' & Bl & Bu). split; [exact Am''|].
    destruct Am as [_ Pd]. destruct M as (_ & Pe & _).
    destruct (rnd_sum (V d) (V e) (format_V d) (format_V e)) as [Rl Ru]; [lra|]. rewrite <- E in Rl, Ru.
    pose proof (route_pos l x) as Pr. pose proof (edge_real_pos u x) as Per. pose proof micro_pos as Pm.
    pose proof u5_val as U5. assert (Uu : uu = 1 / 9007199254740992) by reflexivity.
    set (r := route_length sg x l) in *. set (q := edge_real sg u x) in *.
    assert (Pmr : 0 <= micro * r) by (apply Rmult_le_pos; lra). assert (Pmq : 0 <= micro * q) by (apply Rmult_le_pos; lra).
    set (mr := micro * r) in *. set (mq := micro * q) in *.
    replace (micro * (q + r)) with (mq + mr) by (unfold mq, mr; ring).
    split.
    + eapply Rle_trans; [|exact Bl]. rewrite <- Rmult_assoc. apply Rmult_le_compat_r; [apply pow_le; lra|]. nra.
    + eapply Rle_trans; [exact Bu|]. rewrite <- Rmult_assoc. apply Rmult_le_compat_r; [apply pow_le; lra|]. nra.
Qed.

Lemma cylinder_route l : forall u v, In u dom -> linked sg u l v -> cylinder u v <= route_length sg u l.
Proof.
  induction l as [|x l IH]; intros u v Iu L; cbn [route_length].
  - cbn in L. subst v. destruct (U u Iu) as [Gu _]. rewrite (proj2 (cylinder_zero u u Gu Gu) eq_refl). lra.
  - pose proof L as L0. destruct L as [J L]. destruct (joined_dom sg dom U u x Iu J) as (Ix & Gx & e & f & Ef & _). destruct (U u Iu) as [Gu _].
    destruct (linked_dom u (x :: l) v Iu L0) as [Iv _]. destruct (U v Iv) as [Gv _].
    pose proof (cylinder_triangle u x v Gu Gx Gv). pose proof (IH x v Ix L).
    pose proof (cylinder_edge f u x). unfold edge_real. rewrite Ef. lra.
Qed.
Lemma route_app l : forall u v l', linked sg u l v -> route_length sg u (l ++ l') = route_length sg u l + route_length sg v l'.
Proof.
  induction l as [|x l IH]; intros u v l' L; cbn [route_length app]; [cbn in L; subst; lra|]. rewrite (IH _ _ l' (proj2 L)). lra.
Qed.

(** ** Optimality *)
Lemma pow_mono_1 n m : (n <= m)%nat -> (1 + uu) ^ n <= (1 + uu) ^ m.
Proof. intros H. apply Rle_pow; [unfold uu; lra|exact H]. Qed.

Variable w : f64.
Hypotheses (Fw : is_finite w = true) (Bw : Rabs (V w) <= bpow radix2 900).

Lemma weighted a h : ngeo a -> heuristic_distance a t = Ok h ->
  is_finite (fmul h w) = true /\ Rabs (V (fmul h w)) <= bpow radix2 911 /\
  V (fmul h w) <= micro * cylinder a t * Rmax 1 (V w) * (1 + u5) * (1 + uu) /\ (a = t -> V (fmul h w) = 0).
Proof.
  intros Ga E. destruct (heuristic_ok a t Ga Gt) as (h' & E' & M). assert (h' = h) as -> by congruence. clear E'.
  pose proof M as (Fh & Ph & _). destruct (measures_bounds _ _ M) as [Ml Mu]. pose proof u5_val as U5. pose proof micro_pos as Pm.
  assert (Bp : Rabs (V h * V w) <= bpow radix2 910).
  { rewrite Rabs_mult, (Rabs_pos_eq (V h)) by lra. change 910%Z with (10 + 900)%Z. rewrite bpow_plus.
    apply Rmult_le_compat; [lra|apply Rabs_pos|change (bpow radix2 10) with 1024; lra|exact Bw]. }
  destruct (fmul_correct h w Fh Fw) as [Em Fm]; [eapply Rle_trans; [exact Bp|apply bpow_le; lia]|].
  split; [exact Fm|]. rewrite Em.
  assert (Pc : 0 <= micro * cylinder a t) by (apply Rmult_le_pos; [lra|apply cylinder_pos]).
  set (c := micro * cylinder a t) in *.
  split; [|split].
  - apply Rabs_le. apply Rabs_le_inv in Bp. 
    assert (K : forall x, x <= bpow radix2 910 -> rnd x <= bpow radix2 911).
    { intros x L. assert (R1 : rnd x <= rnd (bpow radix2 910)) by (apply rnd_mono; exact L).
      rewrite (rnd_format (bpow radix2 910)) in R1 by (apply generic_format_bpow; vm_compute; congruence).
      eapply Rle_trans; [exact R1|]. apply bpow_le. lia. }
    assert (K' : forall x, - bpow radix2 910 <= x -> - bpow radix2 911 <= rnd x).
    { intros x L. assert (R1 : rnd (- bpow radix2 910) <= rnd x) by (apply rnd_mono; exact L).
      rewrite (rnd_format (- bpow radix2 910)) in R1 by (apply generic_format_opp, generic_format_bpow; vm_compute; congruence).
      eapply Rle_trans; [|exact R1]. apply Ropp_le_contravar. apply bpow_le. lia. }
    split; [apply K'; lra|apply K; lra].
  - destruct (Rle_or_lt (V w) 1) as [L|L].
    + rewrite Rmax_left by exact L. eapply Rle_trans; [apply (rnd_mono _ (V h)); nra|]. rewrite rnd_V.
      rewrite Rmult_1_r. eapply Rle_trans; [exact Mu|]. assert (0 <= c * (1 + u5)) by (apply Rmult_le_pos; lra). unfold uu. lra.
    + rewrite Rmax_right by lra. destruct (cylinder_one a t Ga Gt) as [Z|One].
      * assert (c = 0) as Z' by (unfold c; rewrite Z; ring). assert (V h = 0) as -> by (rewrite Z' in Ml, Mu; lra).
        rewrite Rmult_0_l, rnd_0, Z'. lra.
      * assert (Lh : 1 / 2000000 <= V h).
        { eapply Rle_trans; [|exact Ml]. destruct micro_bounds as [m1 m2]. unfold c. 
          assert (micro <= micro * cylinder a t) by (rewrite <- (Rmult_1_r micro) at 1; apply Rmult_le_compat_l; lra).
          assert (1 / 1500000 <= micro) by lra. nra. }
        assert (Pos : 1 / 2000000 <= V h * V w) by nra.
        pose proof (rnd_error (V h * V w)) as Er. rewrite Rabs_pos_eq in Er by lra.
        assert (Nrm : bpow radix2 (-1022) <= V h * V w).
        { eapply Rle_trans; [|exact Pos]. eapply Rle_trans; [apply (bpow_le radix2 (-1022) (-30)); lia|]. change (bpow radix2 (-30)) with (/ 1073741824). lra. }
        specialize (Er (or_introl Nrm)). apply Rabs_le_inv in Er. rewrite u53_val in Er.
        apply Rle_trans with (V h * V w * (1 + uu)); [unfold uu; lra|]. apply Rmult_le_compat_r; [unfold uu; lra|].
        replace (c * V w * (1 + u5)) with (c * (1 + u5) * V w) by ring. apply Rmult_le_compat_r; lra.
  - intros ->. assert (c = 0) as Z' by (unfold c; rewrite (proj2 (cylinder_zero t t Gt Gt) eq_refl); ring).
    assert (V h = 0) as -> by (rewrite Z' in Ml, Mu; lra). rewrite Rmult_0_l. apply rnd_0.
Qed.

Lemma priority_ok st y : core st -> In y (ss_heap st) -> ngeo (h_node y) /\ amount (h_dist y) /\
  is_finite (priority w y) = true /\ V (priority w y) = rnd (V (h_dist y) + V (fmul (h_heur y) w)).
Proof.
  intros C I. destruct (c_heap _ _ _ _ _ _ C y I) as (In_ & Am & Eh & _). destruct (U _ In_) as [G _]. split; [exact G|]. split; [exact Am|].
  destruct (weighted _ _ G Eh) as (F & B & _). destruct Am as [Fd Bd]. unfold priority.
  destruct (fadd_correct (h_dist y) (fmul (h_heur y) w) Fd F) as [A1 A2]; [|split; [exact A2|exact A1]].
  eapply Rle_trans; [apply Rabs_triang|]. rewrite (Rabs_pos_eq (V (h_dist y))) by lra.
  apply Rle_trans with (bpow radix2 64 + bpow radix2 911); [apply Rplus_le_compat; [change (bpow radix2 64) with 18446744073709551616; lra|exact B]|].
  apply Rle_trans with (bpow radix2 911 + bpow radix2 911); [apply Rplus_le_compat_r, bpow_le; lia|].
  apply Rle_trans with (bpow radix2 912); [change 912%Z with (1 + 911)%Z; rewrite bpow_plus; change (bpow radix2 1) with 2; lra|apply bpow_le; lia].
Qed.

Lemma search_optimal pick fuel l : minimal w pick -> search_path fuel pick sg s t radius = Some (Ok (s :: l)) ->
  forall p, linked sg s p t -> Forall (within s radius) p ->
  route_length sg s l * ((1 - u5) * (1 - uu) ^ length l) <=
  Rmax 1 (V w) * route_length sg s p * ((1 + u5) * (1 + uu) ^ (length p + 2)).
Proof.
  intros Mn R p Lp Wp. destruct (search_result _ _ _ R) as [[K _]|(l0 & d & st & x & k & El & L & W & _ & Ad & Am & St & Le)]; [discriminate K|].
  inversion El; subst l0. clear El. destruct St as (C & F & (x0 & I0 & Ex) & Ix & Nx). destruct zero_amount as [Z0 Z1].
  destruct (through_queue st C F p s f_0 f_0 Is (or_introl (conj eq_refl eq_refl)) Z0 (Rle_refl _) Lp Wp)
    as (p1 & p2 & y & D' & -> & Iy & L1 & L2 & A1 & AD & Ly).
  destruct (priority_ok st x C Ix) as (Gx & Ax & Fx & Px). destruct (priority_ok st y C Iy) as (Gy & Ay & Fy & Py).
  pose proof (Mn k (ss_heap st) x0 I0 (fun z Iz => proj1 (proj2 (proj2 (priority_ok st z C Iz)))) y Iy) as Lt. rewrite <- Ex in Lt.
  assert (Lxy : V (priority w x) <= V (priority w y)).
  { destruct (Rle_or_lt (V (priority w x)) (V (priority w y))) as [H|H]; [exact H|]. apply (fltb_iff _ _ Fy Fx) in H. congruence. }
  destruct (c_heap _ _ _ _ _ _ C x Ix) as (_ & _ & Ehx & _). destruct (c_heap _ _ _ _ _ _ C y Iy) as (Iyd & _ & Ehy & _).
  destruct (weighted _ _ Gx Ehx) as (_ & _ & _ & Zx). specialize (Zx Nx).
  destruct (weighted _ _ Gy Ehy) as (_ & _ & Wy & _).
  rewrite Zx, Rplus_0_r, rnd_V in Px.
  destruct (adds_up_bounds l s t f_0 d Is L Z0 Ad) as (_ & Bl & _).
  destruct (adds_up_bounds p1 s (h_node y) f_0 D' Is L1 Z0 A1) as (_ & _ & Bu).
  rewrite Z1, Rplus_0_l in Bl, Bu. pose proof (cylinder_route p2 (h_node y) t Iyd L2) as Cy.
  rewrite (route_app p1 s (h_node y) p2 L1), app_length.
  pose proof (route_pos l s) as P0. pose proof (route_pos p1 s) as P1. pose proof (route_pos p2 (h_node y)) as P2.
  pose proof micro_pos as Pm. pose proof u5_val as U5.
  set (W1 := Rmax 1 (V w)) in *. assert (HW : 1 <= W1) by apply Rmax_l.
  set (r1 := route_length sg s p1) in *. set (r2 := route_length sg (h_node y) p2) in *. set (r0 := route_length sg s l) in *.
  set (n := length p1) in *. set (m := length p2) in *.
  (* the priority of y *)
  set (a := micro * r1 * (1 + u5) * (1 + uu) ^ n) in *. set (b := micro * r2 * W1 * (1 + u5) * (1 + uu)).
  assert (Pa : 0 <= a) by (unfold a; apply Rmult_le_pos; [apply Rmult_le_pos; [apply Rmult_le_pos; lra|lra]|apply pow_le; unfold uu; lra]).
  assert (Wb : V (fmul (h_heur y) w) <= b).
  { eapply Rle_trans; [exact Wy|]. unfold b. apply Rmult_le_compat_r; [unfold uu; lra|]. apply Rmult_le_compat_r; [lra|].
    apply Rmult_le_compat_r; [lra|]. apply Rmult_le_compat_l; [lra|exact Cy]. }
  assert (Pb : 0 <= b) by (unfold b; apply Rmult_le_pos; [apply Rmult_le_pos; [apply Rmult_le_pos; [apply Rmult_le_pos|]|]|]; unfold uu; lra).
  assert (Pr : V (priority w y) <= (a + b) * (1 + uu)).
  { rewrite Py. set (q := V (fmul (h_heur y) w)) in *. destruct Ay as [_ By].
    destruct (Rle_or_lt 0 (V (h_dist y) + q)) as [Pos|Neg].
    - destruct (rnd_sum (V (h_dist y)) q (format_V _) (format_V _) Pos) as [_ Ru]. eapply Rle_trans; [exact Ru|].
      apply Rmult_le_compat_r; [unfold uu; lra|]. lra.
    - apply Rle_trans with 0; [rewrite <- rnd_0; apply rnd_mono; lra|]. apply Rmult_le_pos; [lra|unfold uu; lra]. }
  assert (Fin : micro * (r0 * ((1 - u5) * (1 - uu) ^ length l)) <= (a + b) * (1 + uu)).
  { replace (micro * (r0 * ((1 - u5) * (1 - uu) ^ length l))) with (micro * r0 * (1 - u5) * (1 - uu) ^ length l) by ring. lra. }
  apply Rmult_le_reg_l with micro; [exact Pm|]. eapply Rle_trans; [exact Fin|].
  set (E := (1 + uu) ^ (n + m + 1)).
  assert (E1 : (1 + uu) ^ n <= E) by (apply pow_mono_1; lia).
  assert (E2 : 1 + uu <= E) by (rewrite <- (pow_1 (1 + uu)) at 1; apply pow_mono_1; lia).
  replace ((1 + uu) ^ (n + m + 2)) with ((1 + uu) * E) by (unfold E; replace (n + m + 2)%nat with (S (n + m + 1)) by lia; reflexivity).
  assert (A' : a <= micro * r1 * W1 * (1 + u5) * E).
  { unfold a. apply Rmult_le_compat; [apply Rmult_le_pos; [apply Rmult_le_pos|]; lra|apply pow_le; unfold uu; lra| |exact E1].
    apply Rmult_le_compat_r; [lra|]. rewrite <- (Rmult_1_r (micro * r1)) at 1. apply Rmult_le_compat_l; [apply Rmult_le_pos; lra|exact HW]. }
  assert (B' : b <= micro * r2 * W1 * (1 + u5) * E).
  { unfold b. apply Rmult_le_compat_l; [apply Rmult_le_pos; [apply Rmult_le_pos; [apply Rmult_le_pos|]|]; lra|exact E2]. }
  replace (micro * (W1 * (r1 + r2) * ((1 + u5) * ((1 + uu) * E)))) with ((micro * r1 * W1 * (1 + u5) * E + micro * r2 * W1 * (1 + u5) * E) * (1 + uu)) by ring.
  apply Rmult_le_compat_r; [unfold uu; lra|lra].
Qed.
End Spec.
