(** Rings that do not touch stay so when polygons are made of them: how often the edges of a ring cover a point does not
    change when vertices in the middle of a side are left out.  No code is modelled here. *)
From Verif Require Import Jordan Green.
From Coq Require Import ZArith Reals Bool List Lia Lra Psatz Permutation.
From Verif Require Import Base F64 Coordinate Segment Polygon SpecGeom SegmentFacts CoordinateFacts PolygonFacts PolygonFloat PolygonMore PolylineFacts GraphMore Graph GraphFacts Visgraph SweepFacts SweepGeo SweepGraph SweepLayers SweepFronts OpenWater SeaLines SurveyCheck Coasts CoastExact Boundary Enclosed.
Import ListNotations.
Local Open Scope Z_scope.

(** ** How a segment covers a point: twice inside, once at an end *)
Definition pt_dec (p q : pt) : {p = q} + {p <> q}.
Proof. destruct p as [a b], q as [c d]. destruct (Req_EM_T a c) as [E|E]; [destruct (Req_EM_T b d) as [F|F]; [left; congruence|]|]; right; intros K; injection K; intros; congruence. Defined.
Definition below (k : R) : Z := if Rlt_dec k 0 then 2 else if Req_EM_T k 0 then 1 else 0.
Lemma below_2 k : (k < 0)%R -> below k = 2. Proof. unfold below. destruct (Rlt_dec k 0); lra || reflexivity. Qed.
Lemma below_1 k : k = 0%R -> below k = 1. Proof. unfold below. destruct (Rlt_dec k 0), (Req_EM_T k 0); lra || reflexivity. Qed.
Lemma below_0 k : (0 < k)%R -> below k = 0. Proof. unfold below. destruct (Rlt_dec k 0), (Req_EM_T k 0); lra || reflexivity. Qed.
Lemma below_nonneg k : 0 <= below k. Proof. unfold below. destruct (Rlt_dec k 0), (Req_EM_T k 0); lia. Qed.
Definition psi (p q z : pt) : Z :=
  if pt_dec p q then 0 else if Req_EM_T (cross (minus q p) (minus z p)) 0 then below (Jordan.dot (minus z p) (minus z q)) else 0.
Lemma psi_nonneg p q z : 0 <= psi p q z.
Proof. unfold psi. destruct (pt_dec p q); [lia|]. destruct (Req_EM_T _ 0); [apply below_nonneg|lia]. Qed.
Lemma psi_same p z : psi p p z = 0. Proof. unfold psi. destruct (pt_dec p p); congruence. Qed.
Lemma psi_flip p q z : psi q p z = psi p q z.
Proof.
  unfold psi. destruct (pt_dec q p) as [E|E], (pt_dec p q) as [F|F]; try congruence; try reflexivity.
  assert (C : cross (minus p q) (minus z q) = (- cross (minus q p) (minus z p))%R) by (unfold cross, minus; cbn [X Y]; ring). rewrite C.
  assert (D : Jordan.dot (minus z q) (minus z p) = Jordan.dot (minus z p) (minus z q)) by (unfold Jordan.dot, minus; cbn [X Y]; ring). rewrite D.
  destruct (Req_EM_T _ 0) as [A|A], (Req_EM_T (cross (minus q p) (minus z p)) 0) as [B|B]; lra || reflexivity.
Qed.
Definition len2 (p q : pt) : R := ((X q - X p) * (X q - X p) + (Y q - Y p) * (Y q - Y p))%R.
Lemma len2_pos p q : p <> q -> (0 < len2 p q)%R.
Proof.
  intros H. unfold len2. destruct (Req_dec (X q - X p) 0) as [A|A].
  - assert (B : (Y q - Y p <> 0)%R) by (intros B; apply H, pt_eq; lra). pose proof (Rsqr_pos_lt _ B) as C. unfold Rsqr in C. pose proof (Rle_0_sqr (X q - X p)) as G. unfold Rsqr in G. lra.
  - pose proof (Rsqr_pos_lt _ A) as C. unfold Rsqr in C. pose proof (Rle_0_sqr (Y q - Y p)) as G. unfold Rsqr in G. lra.
Qed.
Lemma on_line p q z : p <> q -> cross (minus q p) (minus z p) = 0%R -> exists t, z = mix p q t.
Proof.
  intros H C. pose proof (len2_pos p q H) as L. unfold cross, minus in C. cbn [X Y] in C. set (l := len2 p q) in *.
  set (d := ((X z - X p) * (X q - X p) + (Y z - Y p) * (Y q - Y p))%R). exists (d / l)%R.
  assert (Ed : (d / l * l = d)%R) by (field; lra). set (t := (d / l)%R) in *.
  assert (A : ((X z - X p) * l = d * (X q - X p))%R).
  { unfold l, d, len2. transitivity ((X z - X p) * (X q - X p) * (X q - X p) + (Y q - Y p) * ((Y q - Y p) * (X z - X p)))%R; [ring|].
    replace ((Y q - Y p) * (X z - X p))%R with ((X q - X p) * (Y z - Y p))%R by lra. ring. }
  assert (B : ((Y z - Y p) * l = d * (Y q - Y p))%R).
  { unfold l, d, len2. transitivity ((Y z - Y p) * (Y q - Y p) * (Y q - Y p) + (X q - X p) * ((X q - X p) * (Y z - Y p)))%R; [ring|].
    replace ((X q - X p) * (Y z - Y p))%R with ((Y q - Y p) * (X z - X p))%R by lra. ring. }
  rewrite <- Ed in A, B. assert (A' : (X z - X p = t * (X q - X p))%R) by (apply (Rmult_eq_reg_r l); [rewrite A; ring|lra]). assert (B' : (Y z - Y p = t * (Y q - Y p))%R) by (apply (Rmult_eq_reg_r l); [rewrite B; ring|lra]).
  apply pt_eq; unfold mix; cbn [X Y]; lra.
Qed.
Lemma psi_at p q t : p <> q -> psi p q (mix p q t) = below (t * (t - 1) * len2 p q).
Proof.
  intros H. unfold psi. destruct (pt_dec p q) as [E|_]; [contradiction|]. destruct (Req_EM_T _ 0) as [_|N].
  - f_equal. unfold Jordan.dot, minus, mix, len2. cbn [X Y]. ring.
  - exfalso. apply N. unfold cross, minus, mix. cbn [X Y]. ring.
Qed.
Lemma psi_off p q z : psi p q z <> 0 -> p <> q /\ exists t, (0 <= t <= 1)%R /\ z = mix p q t /\ psi p q z = if Req_EM_T t 0 then 1 else if Req_EM_T t 1 then 1 else 2.
Proof.
  intros H. assert (D : p <> q) by (intros E; apply H; rewrite E; apply psi_same). split; [exact D|].
  assert (C : cross (minus q p) (minus z p) = 0%R) by (unfold psi in H; destruct (pt_dec p q); [contradiction|]; destruct (Req_EM_T _ 0) as [C|C]; [exact C|contradiction]).
  destruct (on_line p q z D C) as (t & E). exists t. rewrite E in *. rewrite psi_at in * by exact D. pose proof (len2_pos p q D) as L.
  assert (T : (0 <= t <= 1)%R). { destruct (Rlt_le_dec t 0) as [A|A]; [exfalso; apply H, below_0; apply Rmult_lt_0_compat; [nra|exact L]|]. destruct (Rlt_le_dec 1 t) as [B|B]; [exfalso; apply H, below_0; apply Rmult_lt_0_compat; [nra|exact L]|lra]. }
  split; [exact T|]. split; [reflexivity|]. destruct (Req_EM_T t 0) as [-> |A]; [apply below_1; ring|]. destruct (Req_EM_T t 1) as [-> |B]; [apply below_1; ring|].
  apply below_2. assert (0 < t * (1 - t) * len2 p q)%R by (apply Rmult_lt_0_compat; [apply Rmult_lt_0_compat; lra|exact L]). lra.
Qed.
Lemma psi_inside p q t : p <> q -> (0 < t < 1)%R -> psi p q (mix p q t) = 2.
Proof. intros D T. rewrite psi_at by exact D. apply below_2. pose proof (len2_pos p q D) as L. assert (0 < t * (1 - t) * len2 p q)%R by (apply Rmult_lt_0_compat; [apply Rmult_lt_0_compat; lra|exact L]). lra. Qed.
Lemma psi_start p q : p <> q -> psi p q p = 1.
Proof. intros D. rewrite <- (mix_0 p q) at 2. rewrite psi_at by exact D. apply below_1. ring. Qed.
Lemma psi_final p q : p <> q -> psi p q q = 1.
Proof. intros D. rewrite <- psi_flip. apply psi_start. congruence. Qed.
Lemma psi_part a c s z : a <> c -> (0 < s < 1)%R -> psi a c z = psi a (mix a c s) z + psi (mix a c s) c z.
Proof.
  intros D Hs. set (b := mix a c s). assert (Dab : a <> b). { intros E. apply (f_equal X) in E as Ex. apply (f_equal Y) in E as Ey. unfold b, mix in Ex, Ey. cbn [X Y] in Ex, Ey. apply D, pt_eq; [apply (Rmult_eq_reg_l s)|apply (Rmult_eq_reg_l s)]; lra. }
  assert (Dbc : b <> c). { intros E. apply (f_equal X) in E as Ex. apply (f_equal Y) in E as Ey. unfold b, mix in Ex, Ey. cbn [X Y] in Ex, Ey. apply D, pt_eq; [apply (Rmult_eq_reg_l (1 - s))|apply (Rmult_eq_reg_l (1 - s))]; lra. }
  set (k := cross (minus c a) (minus z a)). assert (E1 : cross (minus b a) (minus z a) = (s * k)%R) by (unfold k, b, cross, minus, mix; cbn [X Y]; ring). assert (E2 : cross (minus c b) (minus z b) = ((1 - s) * k)%R) by (unfold k, b, cross, minus, mix; cbn [X Y]; ring).
  destruct (Req_EM_T k 0) as [K|K].
  - destruct (on_line a c z D K) as (t & E). pose proof (len2_pos a c D) as L.
    assert (P1 : psi a b z = below (t * (t - s) * len2 a c)).
    { unfold psi. destruct (pt_dec a b) as [|_]; [contradiction|]. rewrite E1, K, Rmult_0_r. destruct (Req_EM_T 0 0) as [_|]; [|lra]. f_equal. rewrite E. unfold b, Jordan.dot, minus, mix, len2. cbn [X Y]. ring. }
    assert (P2 : psi b c z = below ((t - s) * (t - 1) * len2 a c)).
    { unfold psi. destruct (pt_dec b c) as [|_]; [contradiction|]. rewrite E2, K, Rmult_0_r. destruct (Req_EM_T 0 0) as [_|]; [|lra]. f_equal. rewrite E. unfold b, Jordan.dot, minus, mix, len2. cbn [X Y]. ring. }
    rewrite P1, P2, E, psi_at by exact D. set (l := len2 a c) in *. clearbody l. clear - L Hs.
    assert (Sg : forall u, (below (u * l) = below u)) by (intros u; destruct (Rtotal_order u 0) as [U|[U|U]]; [rewrite (below_2 u U); apply below_2; nra|rewrite (below_1 u U); apply below_1; rewrite U; ring|rewrite (below_0 u U); apply below_0; nra]). rewrite !Sg.
    assert (B2 := below_2). assert (B1 := below_1). assert (B0 := below_0).
    destruct (Rtotal_order t 0) as [A|[A|A]]; [rewrite (B0 (t * (t - 1))%R), (B0 (t * (t - s))%R), (B0 ((t - s) * (t - 1))%R) by nra; reflexivity
      |rewrite (B1 (t * (t - 1))%R), (B1 (t * (t - s))%R), (B0 ((t - s) * (t - 1))%R) by (rewrite A; lra); reflexivity|].
    destruct (Rtotal_order t s) as [B|[B|B]]; [rewrite (B2 (t * (t - 1))%R), (B2 (t * (t - s))%R), (B0 ((t - s) * (t - 1))%R) by nra; reflexivity
      |rewrite (B2 (t * (t - 1))%R) by nra; rewrite (B1 (t * (t - s))%R), (B1 ((t - s) * (t - 1))%R) by (rewrite B; ring); reflexivity|].
    destruct (Rtotal_order t 1) as [C|[C|C]]; [rewrite (B2 (t * (t - 1))%R), (B0 (t * (t - s))%R), (B2 ((t - s) * (t - 1))%R) by nra; reflexivity
      |rewrite (B1 (t * (t - 1))%R), (B1 ((t - s) * (t - 1))%R) by (rewrite C; ring); rewrite (B0 (t * (t - s))%R) by nra; reflexivity
      |rewrite (B0 (t * (t - 1))%R), (B0 (t * (t - s))%R), (B0 ((t - s) * (t - 1))%R) by nra; reflexivity].
  - unfold psi. fold k. rewrite E1, E2. destruct (pt_dec a c), (pt_dec a b), (pt_dec b c); try reflexivity; try contradiction. destruct (Req_EM_T k 0); [contradiction|].
    destruct (Req_EM_T (s * k) 0) as [Q|_]; [exfalso; apply Rmult_integral in Q; lra|]. destruct (Req_EM_T ((1 - s) * k) 0) as [Q|_]; [exfalso; apply Rmult_integral in Q; lra|reflexivity].
Qed.
Lemma psi_straight a b c z : codir (vsub b a) (vsub c b) -> psi (rp a) (rp c) z = psi (rp a) (rp b) z + psi (rp b) (rp c) z.
Proof.
  intros H. destruct (codir_between a b c H) as (s & Hs & E). rewrite E. apply psi_part; [|exact Hs]. intros F. rewrite F in E. assert (E' : rp b = rp c) by (rewrite E; apply pt_eq; unfold mix; cbn [X Y]; ring).
  apply rp_inj in F, E'. subst b a. destruct H as [_ H]. unfold CoordinateFacts.dot, vsub in H. cbn [lon lat] in H. lia.
Qed.

(** ** Rings and maps *)
Definition cover (vs : list coord) (z : pt) : Z := total (length vs) (fun i => psi (rp (vat vs i)) (rp (ring_next vs i)) z).
Lemma round_cover vs z : round (fun a b => psi (rp a) (rp b) z) vs = cover vs z.
Proof. apply round_total. Qed.
Lemma cover_cyc vs z : no_repeats vs -> cover (cyc vs) z = cover vs z.
Proof. intros N. rewrite <- !round_cover. apply round_cyc; [intros; apply psi_same|intros; apply psi_straight; assumption|apply no_repeats_ring, N]. Qed.
Lemma cover_rev vs z : cover (rev vs) z = cover vs z.
Proof. rewrite <- !round_cover. rewrite (round_rev _ 1) by (intros; rewrite psi_flip; lia). lia. Qed.
Theorem cover_made vs p : Forall pgeo vs -> no_repeats vs -> make_polygon vs = Ok p -> forall z, cover (verts p) z = cover vs z.
Proof.
  intros F N E z. rewrite make_polygon_pure in E by exact F. inversion E as [E']. cbn [verts]. unfold normalize_orientation.
  assert (K : forall r, r = cyc vs \/ r = rev (cyc vs) -> cover r z = cover vs z) by (intros r [ -> | -> ]; [|rewrite cover_rev]; apply cover_cyc, N).
  apply K. destruct (_ <=? _)%nat; [left; reflexivity|]. destruct (get_orientation_of_vertices _); auto.
Qed.

(** ** Sums over lists *)
Fixpoint zsum {A} (g : A -> Z) (l : list A) : Z := match l with [] => 0 | a :: l => g a + zsum g l end.
Lemma zsum_cons {A} (g : A -> Z) a l : zsum g (a :: l) = g a + zsum g l. Proof. reflexivity. Qed.
Lemma zsum_app {A} (g : A -> Z) l1 l2 : zsum g (l1 ++ l2) = zsum g l1 + zsum g l2.
Proof. induction l1 as [|a l IH]; cbn [app zsum]; [lia|]. rewrite IH. lia. Qed.
Lemma zsum_map {A B} (h : A -> B) g l : zsum g (map h l) = zsum (fun a => g (h a)) l.
Proof. induction l as [|a l IH]; cbn [map zsum]; [reflexivity|]. rewrite IH. reflexivity. Qed.
Lemma zsum_flat {A B} (h : A -> list B) g l : zsum g (flat_map h l) = zsum (fun a => zsum g (h a)) l.
Proof. induction l as [|a l IH]; cbn [flat_map zsum]; [reflexivity|]. rewrite zsum_app, IH. reflexivity. Qed.
Lemma zsum_ext {A} (g h : A -> Z) l : (forall a, In a l -> g a = h a) -> zsum g l = zsum h l.
Proof. induction l as [|a l IH]; intros H; cbn [zsum]; [reflexivity|]. rewrite H by (left; reflexivity). rewrite IH by (intros; apply H; right; assumption). reflexivity. Qed.
Lemma zsum_le {A} (g h : A -> Z) l : (forall a, In a l -> g a <= h a) -> zsum g l <= zsum h l.
Proof. induction l as [|a l IH]; intros H; cbn [zsum]; [lia|]. pose proof (H a (or_introl eq_refl)). pose proof (IH (fun x Hx => H x (or_intror Hx))). lia. Qed.
Lemma zsum_plus {A} (g h : A -> Z) l : zsum (fun a => g a + h a) l = zsum g l + zsum h l.
Proof. induction l as [|a l IH]; cbn [zsum]; [lia|]. rewrite IH. lia. Qed.
Lemma zsum_nonneg {A} (g : A -> Z) l : (forall a, In a l -> 0 <= g a) -> 0 <= zsum g l.
Proof. induction l as [|a l IH]; intros H; cbn [zsum]; [lia|]. pose proof (H a (or_introl eq_refl)). pose proof (IH (fun x Hx => H x (or_intror Hx))). lia. Qed.
Lemma zsum_one {A} (g : A -> Z) l a : (forall x, 0 <= g x) -> In a l -> g a <= zsum g l.
Proof. intros H. induction l as [|b l IH]; intros I; [destruct I|]. destruct I as [E|I]; cbn [zsum]; [subst b; pose proof (zsum_nonneg g l (fun x _ => H x)); lia|]. pose proof (IH I). pose proof (H b). lia. Qed.
Lemma zsum_two {A} (g : A -> Z) l a b : (forall x, 0 <= g x) -> In a l -> In b l -> a <> b -> g a + g b <= zsum g l.
Proof.
  intros H. induction l as [|c l IH]; intros I J D; [destruct I|]. cbn [zsum]. destruct I as [E|I], J as [F|J].
  - congruence.
  - subst c. pose proof (zsum_one g l b H J). lia.
  - subst c. pose proof (zsum_one g l a H I). lia.
  - pose proof (IH I J D). pose proof (H c). lia.
Qed.
Lemma zsum_zero {A} (g : A -> Z) l : (forall a, In a l -> g a = 0) -> zsum g l = 0.
Proof. induction l as [|a l IH]; intros H; cbn [zsum]; [reflexivity|]. rewrite H by (left; reflexivity). rewrite IH by (intros; apply H; right; assumption). reflexivity. Qed.
Lemma zsum_only {A} (g : A -> Z) l a : NoDup l -> In a l -> (forall b, In b l -> b <> a -> g b = 0) -> zsum g l = g a.
Proof.
  induction l as [|c l IH]; intros Nd I H; [destruct I|]. cbn [zsum]. inversion Nd as [|x y N1 N2]; subst. destruct I as [E|I].
  - subst c. rewrite zsum_zero; [lia|]. intros b B. apply H; [right; exact B|]. intros E. subst b. contradiction.
  - rewrite IH; [|exact N2|exact I|intros b B; apply H; right; exact B]. rewrite (H c); [lia|left; reflexivity|]. intros E. subst c. contradiction.
Qed.
Lemma zsum_perm {A} (g : A -> Z) l l' : Permutation l l' -> zsum g l = zsum g l'.
Proof. induction 1; cbn [zsum]; lia. Qed.
Lemma zsum_total (g : nat -> Z) n : zsum g (seq 0 n) = total n g.
Proof. induction n as [|n IH]; [reflexivity|]. rewrite seq_S, zsum_app, IH. cbn [zsum total plus]. lia. Qed.

(** ** The edges of a map *)
Definition weight (z : pt) (e : segment) : Z := psi (rp (e1 e)) (rp (e2 e)) z.
Definition here (z : pt) (c : coord) : Z := if pt_dec (rp c) z then 1 else 0.
Lemma here_nonneg z c : 0 <= here z c. Proof. unfold here. destruct (pt_dec _ _); lia. Qed.
Lemma here_once z l : NoDup l -> zsum (here z) l <= 1.
Proof.
  induction l as [|a l IH]; intros Nd; cbn [zsum]; [lia|]. inversion Nd as [|x y N1 N2]; subst. unfold here at 1. destruct (pt_dec (rp a) z) as [E|E]; [|specialize (IH N2); lia].
  rewrite zsum_zero; [lia|]. intros b B. unfold here. destruct (pt_dec (rp b) z) as [F|F]; [|reflexivity]. exfalso. rewrite <- E in F. apply rp_inj in F. subst b. contradiction.
Qed.
Lemma once_nodup l : (forall z, zsum (here z) l <= 1) -> NoDup l.
Proof.
  induction l as [|a l IH]; intros H; constructor.
  - intros I. specialize (H (rp a)). cbn [zsum] in H. pose proof (zsum_one (here (rp a)) l a (here_nonneg _) I) as K. unfold here at 1 in H. unfold here at 1 in K. destruct (pt_dec (rp a) (rp a)); [lia|contradiction].
  - apply IH. intros z. specialize (H z). cbn [zsum] in H. pose proof (here_nonneg z a). lia.
Qed.
Lemma starts P : map e1 (edges_list P) = verts P.
Proof. unfold edges_list. rewrite map_map. cbn [e1]. apply map_vat. Qed.
Lemma finals P : Permutation (map e2 (edges_list P)) (verts P).
Proof.
  unfold edges_list. rewrite map_map. cbn [e2]. set (vs := verts P). destruct vs as [|h t] eqn:E; [constructor|]. rewrite <- E. set (n := length t).
  assert (L : length vs = S n) by (rewrite E; reflexivity). rewrite L, seq_S, map_app. cbn [map plus].
  assert (A : map (ring_next vs) (seq 0 n) = t).
  { transitivity (map (vat vs) (seq 1 n)).
    - rewrite <- seq_shift, map_map. apply map_ext_in. intros i I. apply in_seq in I. unfold ring_next. rewrite Nat.mod_small by lia. f_equal. lia.
    - pose proof (map_vat vs) as M. rewrite L in M. cbn [seq map] in M. rewrite E in M at 3. injection M as M1 M2. exact M2. }
  change (fun x => ring_next vs x) with (ring_next vs). rewrite A. assert (B : ring_next vs n = h) by (unfold ring_next; rewrite L; replace (n + 1)%nat with (S n) by lia; rewrite Nat.mod_same by lia; rewrite E; reflexivity). rewrite B, E. apply Permutation_sym, Permutation_cons_append.
Qed.
Lemma all_starts ps : map e1 (all_edges ps) = polygon_vertices ps.
Proof. unfold all_edges, polygon_vertices. induction ps as [|P ps IH]; [reflexivity|]. cbn [flat_map map concat]. rewrite map_app, IH, starts. reflexivity. Qed.
Lemma all_finals ps : Permutation (map e2 (all_edges ps)) (polygon_vertices ps).
Proof. unfold all_edges, polygon_vertices. induction ps as [|P ps IH]; [constructor|]. cbn [flat_map map concat]. rewrite map_app. apply Permutation_app; [apply finals|exact IH]. Qed.
Definition all_cover (ps : list polygon) (z : pt) : Z := zsum (weight z) (all_edges ps).
Lemma all_cover_sum ps z : all_cover ps z = zsum (fun P => cover (verts P) z) ps.
Proof. unfold all_cover, all_edges. rewrite zsum_flat. apply zsum_ext. intros P _. unfold edges_list. rewrite zsum_map, zsum_total. reflexivity. Qed.
Definition apart (ps : list polygon) : Prop := forall P, In P ps -> no_repeats (verts P).
Lemma apart_edge ps e : apart ps -> In e (all_edges ps) -> rp (e1 e) <> rp (e2 e).
Proof. intros A I. apply all_edges_ok in I as (P & i & HP & Hi & ->). cbn [e1 e2]. intros E. apply rp_inj in E. exact (A P HP i Hi E). Qed.
(** edges that share no point but ends cover no point more than twice *)
Theorem simple_covered ps z : apart ps -> simple_map ps -> NoDup (polygon_vertices ps) -> all_cover ps z <= 2.
Proof.
  intros A Si Nd. assert (Ne : NoDup (all_edges ps)) by (apply (NoDup_map_inv e1); rewrite all_starts; exact Nd). unfold all_cover.
  assert (Cs : (exists e, In e (all_edges ps) /\ weight z e = 2) \/ (forall e, In e (all_edges ps) -> weight z e <> 2)).
  { destruct (existsb (fun e => weight z e =? 2) (all_edges ps)) eqn:E; [left; apply existsb_exists in E as (e & I & K); exists e; split; [exact I|apply Z.eqb_eq, K]|right; intros e I K].
    assert (T : existsb (fun e => weight z e =? 2) (all_edges ps) = true) by (apply existsb_exists; exists e; split; [exact I|apply Z.eqb_eq, K]). congruence. }
  destruct Cs as [(e & I & K)|Cs].
  - rewrite (zsum_only _ _ e Ne I); [lia|]. intros f F D. destruct (Z.eq_dec (weight z f) 0) as [W|W]; [exact W|exfalso]. unfold weight in K, W.
    destruct (psi_off _ _ _ W) as (_ & t & T & Et & _). assert (W' : psi (rp (e1 e)) (rp (e2 e)) z <> 0) by lia. destruct (psi_off _ _ _ W') as (_ & s & Hs & Es & Ps). rewrite K in Ps.
    destruct (Si e f s t) as [[S0|S1] _]; [apply all_edges_ok, I|apply all_edges_ok, F|congruence|exact Hs|exact T|congruence| |].
    + destruct (Req_EM_T s 0); [discriminate|contradiction].
    + destruct (Req_EM_T s 0); [discriminate|]. destruct (Req_EM_T s 1); [discriminate|contradiction].
  - transitivity (zsum (fun e => here z (e1 e) + here z (e2 e)) (all_edges ps)).
    + apply zsum_le. intros e I. specialize (Cs e I). unfold weight in *. destruct (Z.eq_dec (psi (rp (e1 e)) (rp (e2 e)) z) 0) as [W|W]; [pose proof (here_nonneg z (e1 e)); pose proof (here_nonneg z (e2 e)); lia|].
      destruct (psi_off _ _ _ W) as (_ & t & T & Et & Pt). rewrite Pt in *. destruct (Req_EM_T t 0) as [T0|T0]; [|destruct (Req_EM_T t 1) as [T1|T1]; [|contradiction]].
      * assert (Z0 : rp (e1 e) = z) by (rewrite Et, T0, mix_0; reflexivity). pose proof (here_nonneg z (e2 e)). unfold here at 1. destruct (pt_dec (rp (e1 e)) z); [lia|contradiction].
      * assert (Z1 : rp (e2 e) = z) by (rewrite Et, T1; apply pt_eq; unfold mix; cbn [X Y]; ring). pose proof (here_nonneg z (e1 e)). unfold here at 2. destruct (pt_dec (rp (e2 e)) z); [lia|contradiction].
    + rewrite zsum_plus, <- (zsum_map e1 (here z)), <- (zsum_map e2 (here z)), all_starts, (zsum_perm _ _ _ (all_finals ps)). pose proof (here_once z _ Nd). lia.
Qed.
Theorem covered_simple ps : apart ps -> (forall z, all_cover ps z <= 2) -> simple_map ps /\ NoDup (polygon_vertices ps).
Proof.
  intros A C. assert (Wn : forall z e, 0 <= weight z e) by (intros; apply psi_nonneg). split.
  - assert (One : forall e f s t, polygon_edge ps e -> polygon_edge ps f -> e <> f -> (0 <= s <= 1)%R -> (0 <= t <= 1)%R -> mix (rp (e1 e)) (rp (e2 e)) s = mix (rp (e1 f)) (rp (e2 f)) t -> (s = 0 \/ s = 1)%R).
    { intros e f s t E F D Hs Ht M. apply all_edges_ok in E, F. destruct (Req_dec s 0) as [S0|S0]; [left; exact S0|]. destruct (Req_dec s 1) as [S1|S1]; [right; exact S1|exfalso].
      set (z := mix (rp (e1 e)) (rp (e2 e)) s) in *. pose proof (zsum_two (weight z) _ e f (Wn z) E F D) as K. specialize (C z). unfold all_cover in C.
      assert (K1 : weight z e = 2) by (apply psi_inside; [exact (apart_edge ps e A E)|lra]). assert (K2 : 1 <= weight z f).
      { unfold weight. rewrite M. pose proof (apart_edge ps f A F) as Df. rewrite psi_at by exact Df. pose proof (len2_pos _ _ Df) as L. unfold below. destruct (Rlt_dec _ 0) as [|N1]; [lia|]. destruct (Req_EM_T _ 0) as [|N2]; [lia|exfalso].
        assert (0 <= t * (1 - t) * len2 (rp (e1 f)) (rp (e2 f)))%R by (apply Rmult_le_pos; [apply Rmult_le_pos; lra|lra]). lra. }
      lia. }
    intros e f s t E F D Hs Ht M. split; [exact (One e f s t E F D Hs Ht M)|exact (One f e t s F E (fun K => D (eq_sym K)) Ht Hs (eq_sym M))].
  - apply once_nodup. intros z. specialize (C z). unfold all_cover in C. assert (K : zsum (fun e => here z (e1 e) + here z (e2 e)) (all_edges ps) <= zsum (weight z) (all_edges ps)).
    { apply zsum_le. intros e I. pose proof (apart_edge ps e A I) as D. pose proof (Wn z e). unfold here. destruct (pt_dec (rp (e1 e)) z) as [E1|E1], (pt_dec (rp (e2 e)) z) as [E2|E2]; [congruence| | |lia].
      - unfold weight. rewrite <- E1, psi_start by exact D. lia.
      - unfold weight. rewrite <- E2, psi_final by exact D. lia. }
    rewrite zsum_plus, <- (zsum_map e1 (here z)), <- (zsum_map e2 (here z)), all_starts, (zsum_perm _ _ _ (all_finals ps)) in K. lia.
Qed.

(** ** Maps made of rings *)
Lemma cover_vertex vs c : no_repeats vs -> In c vs -> 2 <= cover vs (rp c).
Proof.
  intros N I. assert (Ap : apart [mkP vs]) by (intros P [<-|[]]; exact N). pose proof (all_cover_sum [mkP vs] (rp c)) as E. cbn [zsum verts] in E. unfold all_cover in E.
  assert (K : zsum (fun e => here (rp c) (e1 e) + here (rp c) (e2 e)) (all_edges [mkP vs]) <= zsum (weight (rp c)) (all_edges [mkP vs])).
  { apply zsum_le. intros e Ie. pose proof (apart_edge _ e Ap Ie) as D. pose proof (psi_nonneg (rp (e1 e)) (rp (e2 e)) (rp c)). unfold weight, here. destruct (pt_dec (rp (e1 e)) (rp c)) as [E1|E1], (pt_dec (rp (e2 e)) (rp c)) as [E2|E2]; [congruence| | |lia].
    - rewrite <- E1, psi_start by exact D. lia.
    - rewrite <- E2, psi_final by exact D. lia. }
  rewrite zsum_plus, <- (zsum_map e1 (here (rp c))), <- (zsum_map e2 (here (rp c))), all_starts, (zsum_perm _ _ _ (all_finals [mkP vs])) in K.
  assert (J : In c (polygon_vertices [mkP vs])) by (unfold polygon_vertices; cbn [map concat verts]; rewrite app_nil_r; exact I). pose proof (zsum_one (here (rp c)) _ c (here_nonneg _) J) as O. unfold here at 1 in O. destruct (pt_dec (rp c) (rp c)); [lia|contradiction].
Qed.
Lemma psi_wrap k a b z : psi (rp (wrap k a)) (rp (wrap k b)) z = psi (rp a) (rp b) (P2 (X z - IZR (k * 360000001)) (Y z)).
Proof.
  unfold psi. assert (E : rp (wrap k a) = rp (wrap k b) <-> rp a = rp b).
  { split; intros H; apply rp_inj in H; [apply (f_equal (wrap (- k))) in H; rewrite !wrap_wrap, Z.add_opp_diag_l, !wrap_0 in H|]; congruence. }
  destruct (pt_dec (rp (wrap k a)) (rp (wrap k b))) as [A|A], (pt_dec (rp a) (rp b)) as [B|B]; try tauto.
  assert (C : forall u v w, cross (minus (rp (wrap k u)) (rp (wrap k v))) (minus z (rp (wrap k w))) = cross (minus (rp u) (rp v)) (minus (P2 (X z - IZR (k * 360000001)) (Y z)) (rp w))).
  { intros u v w. unfold cross, minus, rp, wrap. cbn [X Y lon lat]. rewrite !plus_IZR. ring. }
  assert (D : forall u v, Jordan.dot (minus z (rp (wrap k u))) (minus z (rp (wrap k v))) = Jordan.dot (minus (P2 (X z - IZR (k * 360000001)) (Y z)) (rp u)) (minus (P2 (X z - IZR (k * 360000001)) (Y z)) (rp v))).
  { intros u v. unfold Jordan.dot, minus, rp, wrap. cbn [X Y lon lat]. rewrite !plus_IZR. ring. }
  rewrite C, D. reflexivity.
Qed.
Lemma cover_wrap k vs z : cover (map (wrap k) vs) z = cover vs (P2 (X z - IZR (k * 360000001)) (Y z)).
Proof. unfold cover. rewrite map_length. apply total_ext. intros i I. rewrite vat_wrap, ring_next_wrap by exact I. apply psi_wrap. Qed.
Lemma turns_wrap k a b z : turns (rp (wrap k a)) (rp (wrap k b)) z = turns (rp a) (rp b) (P2 (X z - IZR (k * 360000001)) (Y z)).
Proof.
  assert (C : cross (minus (rp (wrap k b)) (rp (wrap k a))) (minus z (rp (wrap k a))) = cross (minus (rp b) (rp a)) (minus (P2 (X z - IZR (k * 360000001)) (Y z)) (rp a))) by (unfold cross, minus, rp, wrap; cbn [X Y lon lat]; rewrite !plus_IZR; ring).
  unfold turns. rewrite C. set (h := cross _ _). unfold rp, wrap. cbn [X Y lon lat]. rewrite !plus_IZR. repeat (match goal with |- context [Rlt_dec ?x ?y] => destruct (Rlt_dec x y) end); reflexivity || lra.
Qed.
Lemma goes_wrap k vs z : goes_round (map (wrap k) vs) z = goes_round vs (P2 (X z - IZR (k * 360000001)) (Y z)).
Proof. unfold goes_round. rewrite map_length. apply total_ext. intros i I. rewrite vat_wrap, ring_next_wrap by exact I. apply turns_wrap. Qed.
Lemma wind_goes P c : wind P c = goes_round (verts P) (rp c).
Proof. unfold wind, goes_round. apply total_ext. intros i _. symmetry. apply rounds_turns. Qed.
Lemma repeats_wrap k vs : no_repeats vs -> no_repeats (map (wrap k) vs).
Proof. intros N i I. rewrite map_length in I. rewrite vat_wrap, ring_next_wrap by exact I. intros E. apply (N i I). apply (f_equal (wrap (- k))) in E. rewrite !wrap_wrap, Z.add_opp_diag_l, !wrap_0 in E. exact E. Qed.
Lemma wrap_shift k c : wrap k c = SpecGeom.shift (mkC (k * 360000001) 0) c.
Proof. apply coord_ext; cbn [wrap SpecGeom.shift lon lat]; lia. Qed.
Lemma copy_area k P : ring_area (verts (wrap_polygon k P)) = ring_area (verts P).
Proof. unfold wrap_polygon. cbn [verts]. rewrite (map_ext _ _ (wrap_shift k)). apply ring_area_shift. Qed.
Lemma drawn_simple ps : Forall clear_polygon ps -> NoDup (polygon_vertices ps) -> simple_map (map_copies ps) -> (forall o, In o (polygon_vertices ps) -> off_land o (map_copies ps)) -> drawn ps.
Proof.
  intros Cl Nd Si Ol. split; [|exact Ol]. apply sketched_simple; [exact Si|]. intros Q H. apply copies_in in H as (P & j & HP & Hj & ->). rewrite Forall_forall in Cl.
  destruct (clear_polygon_facts P (Cl P HP)) as (_ & _ & N3 & _ & A). rewrite copy_area. split; [|split; [|exact A]].
  - unfold wrap_polygon. cbn [verts]. apply FinFun.Injective_map_NoDup; [|exact (vertices_NoDup_in ps P Nd HP)]. intros a b E. apply coord_ext; [apply (f_equal lon) in E|apply (f_equal lat) in E]; cbn [wrap lon lat] in E; lia.
  - unfold wrap_polygon. cbn [verts]. rewrite map_length. exact N3.
Qed.
(** [p] is made of the ring [vs] *)
Definition made_of (vs : list coord) (p : polygon) : Prop := Forall ngeo vs /\ no_repeats vs /\ clear_area vs /\ make_polygon vs = Ok p.
Lemma made_apart vs p : made_of vs p -> no_repeats (verts p).
Proof.
  intros (F & N & _ & M). assert (Fp : Forall pgeo vs) by (eapply Forall_impl; [|exact F]; apply ngeo_pgeo). destruct (construction_no_straight vs p Fp N M) as (St & _). intros i I E. apply (St i I).
  exists 1, 1. cbn [e1 e2]. rewrite E. lia.
Qed.
Lemma made_cover vs p k z : made_of vs p -> cover (verts (wrap_polygon k p)) z = cover (map (wrap k) vs) z.
Proof. intros (F & N & _ & M). unfold wrap_polygon. cbn [verts]. rewrite !cover_wrap. apply cover_made; [eapply Forall_impl; [|exact F]; apply ngeo_pgeo|exact N|exact M]. Qed.
Definition raw (raws : list (list coord)) : list polygon := map mkP raws.
Lemma raw_copies raws Q : In Q (map_copies (raw raws)) <-> exists vs k, In vs raws /\ -1 <= k <= 1 /\ Q = mkP (map (wrap k) vs).
Proof.
  rewrite copies_in. unfold raw. split.
  - intros (P & k & I & K & ->). apply in_map_iff in I as (vs & <- & I). exists vs, k. auto.
  - intros (vs & k & I & K & ->). exists (mkP vs), k. split; [apply in_map, I|]. auto.
Qed.
Lemma raw_vertices raws : polygon_vertices (raw raws) = concat raws.
Proof. unfold polygon_vertices, raw. rewrite map_map. cbn [verts]. rewrite map_id. reflexivity. Qed.
Section Made.
Variable raws : list (list coord).
Variable ps : list polygon.
Hypothesis Md : Forall2 made_of raws ps.
Lemma made_in p : In p ps -> exists vs, In vs raws /\ made_of vs p.
Proof. clear - Md. induction Md as [|vs q rs qs H M IH]; intros I; [destruct I|]. destruct I as [<-|I]; [exists vs; split; [left; reflexivity|exact H]|]. destruct (IH M I) as (v & Hv & K). exists v. split; [right; exact Hv|exact K]. Qed.
Lemma made_for vs : In vs raws -> exists p, In p ps /\ made_of vs p.
Proof. clear - Md. induction Md as [|ws q rs qs H M IH]; intros I; [destruct I|]. destruct I as [<-|I]; [exists q; split; [left; reflexivity|exact H]|]. destruct (IH M I) as (v & Hv & K). exists v. split; [right; exact Hv|exact K]. Qed.
Lemma copies_cover z : all_cover (map_copies ps) z = all_cover (map_copies (raw raws)) z.
Proof.
  rewrite !all_cover_sum. unfold map_copies. rewrite !zsum_flat. unfold raw. rewrite zsum_map. clear - Md. induction Md as [|vs p rs qs H M IH]; [reflexivity|]. rewrite (zsum_cons _ p qs), (zsum_cons _ vs rs), (IH M). f_equal. cbn [zsum].
  rewrite !(made_cover vs p _ z H). f_equal. rewrite <- (wrap_polygon_0 p) at 1. rewrite (made_cover vs p 0 z H). f_equal. rewrite <- (map_id vs) at 2. apply map_ext, wrap_0.
Qed.
Lemma copies_apart : apart (map_copies ps) /\ apart (map_copies (raw raws)).
Proof.
  split; intros Q H.
  - apply copies_in in H as (p & k & I & K & ->). destruct (made_in p I) as (vs & _ & M). unfold wrap_polygon. cbn [verts]. apply repeats_wrap, (made_apart vs), M.
  - apply raw_copies in H as (vs & k & I & K & ->). destruct (made_for vs I) as (p & _ & M). cbn [verts]. apply repeats_wrap, M.
Qed.
Hypothesis Nd : NoDup (concat raws).
Hypothesis Si : simple_map (map_copies (raw raws)).
Lemma raw_nodup : NoDup (polygon_vertices (map_copies (raw raws))).
Proof.
  apply copies_nodup; [|rewrite raw_vertices; exact Nd]. intros c H. rewrite raw_vertices in H. apply in_concat in H as (vs & I & H). destruct (made_for vs I) as (p & _ & M). destruct M as (F & _). rewrite Forall_forall in F. apply F, H.
Qed.
Lemma copies_simple : simple_map (map_copies ps) /\ NoDup (polygon_vertices (map_copies ps)).
Proof. destruct copies_apart as [A B]. apply covered_simple; [exact A|]. intros z. rewrite copies_cover. apply simple_covered; [exact B|exact Si|exact raw_nodup]. Qed.
Hypothesis Ol : forall o, In o (concat raws) -> off_land o (map_copies (raw raws)).
Theorem made_drawn : Forall clear_polygon ps /\ NoDup (polygon_vertices ps) /\ drawn ps.
Proof.
  assert (Cl : Forall clear_polygon ps) by (rewrite Forall_forall; intros p I; destruct (made_in p I) as (vs & _ & M); exists vs; exact M). destruct copies_simple as [S1 S2].
  assert (Nv : NoDup (polygon_vertices ps)).
  { destruct copies_apart as [A B]. apply covered_simple.
    - intros P HP. apply A, copies_in. exists P, 0. rewrite wrap_polygon_0. repeat split; try lia. exact HP.
    - intros z. transitivity (all_cover (map_copies ps) z); [|rewrite copies_cover; apply simple_covered; [exact B|exact Si|exact raw_nodup]]. rewrite !all_cover_sum. unfold map_copies. rewrite zsum_flat. apply zsum_le. intros P _. cbn [zsum].
      assert (Cn : forall Q, 0 <= cover (verts Q) z) by (intros Q; unfold cover; rewrite <- zsum_total; apply zsum_nonneg; intros; apply psi_nonneg). pose proof (Cn (wrap_polygon 1 P)). pose proof (Cn (wrap_polygon (-1) P)). lia. }
  split; [exact Cl|]. split; [exact Nv|]. apply drawn_simple; [exact Cl|exact Nv|exact S1|]. intros o H Q HQ. destruct (proj1 (in_polygon_vertices ps o) H) as (p' & I' & O'). destruct (made_in p' I') as (vs' & J' & M').
  assert (Oc : In o (concat raws)). { apply in_concat. exists vs'. split; [exact J'|]. destruct M' as (F & N & C & M). assert (Fp : Forall pgeo vs') by (eapply Forall_impl; [|exact F]; apply ngeo_pgeo). rewrite make_polygon_clear in M by assumption. inversion M; subst p'. cbn [verts] in O'. apply cyc_incl. unfold ccw in O'. destruct (0 <? _); [exact O'|apply in_rev, O']. }
  apply copies_in in HQ as (p & k & I & K & ->). destruct (made_in p I) as (vs & J & M). destruct (Ol o Oc (mkP (map (wrap k) vs))) as [In1|W]; [apply raw_copies; exists vs, k; auto| |].
  - left. cbn [verts] in In1. destruct M as (F & N & C & M). assert (Mp : made_of vs p) by (repeat split; assumption || apply C). pose proof (cover_vertex _ o (repeats_wrap k vs N) In1) as G. rewrite <- (made_cover vs p k _ Mp) in G.
    pose proof (cover_vertex _ o (made_apart vs' p' M') O') as G'. assert (Ic : In p' (map_copies ps)) by (apply copies_in; exists p', 0; rewrite wrap_polygon_0; repeat split; try lia; exact I'). assert (Iq : In (wrap_polygon k p) (map_copies ps)) by (apply copies_in; exists p, k; auto).
    destruct (list_eq_dec coord_dec (verts p') (verts (wrap_polygon k p))) as [E|E]; [rewrite <- E; exact O'|exfalso]. assert (D : p' <> wrap_polygon k p) by congruence.
    assert (Cn : forall P, 0 <= cover (verts P) (rp o)) by (intros P; unfold cover; rewrite <- zsum_total; apply zsum_nonneg; intros; apply psi_nonneg).
    pose proof (zsum_two (fun P => cover (verts P) (rp o)) (map_copies ps) p' (wrap_polygon k p) Cn Ic Iq D) as T. rewrite <- all_cover_sum, copies_cover in T. destruct copies_apart as [_ B]. pose proof (simple_covered _ (rp o) B Si raw_nodup). cbv beta in T. lia.
  - right. rewrite wind_goes in *. cbn [verts wrap_polygon] in *. unfold wrap_polygon. cbn [verts]. rewrite goes_wrap in *. destruct M as (F & N & C & M). assert (Fp : Forall pgeo vs) by (eapply Forall_impl; [|exact F]; apply ngeo_pgeo).
    rewrite (made_clear vs p Fp N C M), W. lia.
Qed.
End Made.
(** one ring *)
Theorem ring_simple vs p : Forall pgeo vs -> no_repeats vs -> make_polygon vs = Ok p -> (NoDup vs /\ simple_map [mkP vs] <-> NoDup (verts p) /\ simple_map [p]).
Proof.
  intros F N M. assert (One : forall l, polygon_vertices [mkP l] = l) by (intros l; unfold polygon_vertices; cbn [map concat verts]; apply app_nil_r). destruct p as [r].
  assert (Ar : apart [mkP r]). { intros P [<-|[]]. destruct (construction_no_straight vs (mkP r) F N M) as (St & _). intros i I E. apply (St i I). exists 1, 1. cbn [e1 e2]. rewrite E. lia. }
  assert (Av : apart [mkP vs]) by (intros P [<-|[]]; exact N). cbn [verts].
  assert (K : forall a b, apart [mkP a] -> apart [mkP b] -> (forall z, cover b z = cover a z) -> NoDup a /\ simple_map [mkP a] -> NoDup b /\ simple_map [mkP b]).
  { intros a b Aa Ab C [Nd Si]. enough (G : simple_map [mkP b] /\ NoDup (polygon_vertices [mkP b])) by (rewrite (One b) in G; tauto). apply covered_simple; [exact Ab|]. intros z. rewrite <- (One a) in Nd.
    pose proof (simple_covered [mkP a] z Aa Si Nd) as G. rewrite all_cover_sum in *. cbn [zsum verts] in *. rewrite C. exact G. }
  pose proof (cover_made vs (mkP r) F N M) as C. cbn [verts] in C. split; apply K; try assumption. intros z. symmetry. apply C.
Qed.
(** the polygon has the same points on its edges *)
Lemma cover_on vs z : no_repeats vs -> (on_ring vs z <-> 0 < cover vs z).
Proof.
  intros N. unfold cover. rewrite <- zsum_total. split.
  - intros (i & s & I & Hs & M). assert (Ii : In i (seq 0 (length vs))) by (apply in_seq; lia). assert (D : rp (vat vs i) <> rp (ring_next vs i)) by (intros E; apply rp_inj in E; exact (N i I E)).
    pose proof (zsum_one (fun i => psi (rp (vat vs i)) (rp (ring_next vs i)) z) _ i (fun _ => psi_nonneg _ _ _) Ii) as K. cbv beta in K. rewrite <- M in K at 1. rewrite psi_at in K by exact D. pose proof (len2_pos _ _ D) as L. unfold below in K.
    destruct (Rlt_dec _ 0) as [|N1]; [lia|]. destruct (Req_EM_T _ 0) as [|N2]; [lia|exfalso]. assert (0 <= s * (1 - s) * len2 (rp (vat vs i)) (rp (ring_next vs i)))%R by (apply Rmult_le_pos; [apply Rmult_le_pos; lra|lra]). lra.
  - intros H. destruct (existsb (fun i => negb (psi (rp (vat vs i)) (rp (ring_next vs i)) z =? 0)) (seq 0 (length vs))) eqn:E.
    + apply existsb_exists in E as (i & I & K). apply in_seq in I. apply negb_true_iff, Z.eqb_neq in K. destruct (psi_off _ _ _ K) as (_ & t & T & Et & _). exists i, t. split; [lia|]. split; [exact T|]. symmetry. exact Et.
    + exfalso. rewrite zsum_zero in H; [lia|]. intros i I. destruct (Z.eq_dec (psi (rp (vat vs i)) (rp (ring_next vs i)) z) 0) as [K|K]; [exact K|exfalso].
      assert (T : existsb (fun i => negb (psi (rp (vat vs i)) (rp (ring_next vs i)) z =? 0)) (seq 0 (length vs)) = true) by (apply existsb_exists; exists i; split; [exact I|apply negb_true_iff, Z.eqb_neq, K]). congruence.
Qed.
Theorem on_made vs p z : Forall pgeo vs -> no_repeats vs -> make_polygon vs = Ok p -> (on_ring (verts p) z <-> on_ring vs z).
Proof.
  intros F N M. assert (Nr : no_repeats (verts p)) by (destruct (construction_no_straight vs p F N M) as (St & _); intros i I E; apply (St i I); exists 1, 1; cbn [e1 e2]; rewrite E; lia).
  rewrite (cover_on _ _ Nr), (cover_on _ _ N), (cover_made vs p F N M). reflexivity.
Qed.
