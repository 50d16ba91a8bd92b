(** The test suite of the repository, run on the model: each case is named after the line it starts at in the file named
    above it.  The arctangent is computed in fixed point; hash orders and [std::sort] are [plain_orders]; literals are
    turned into doubles and go through the constructor as in the tests. *)
From Coq Require Import ZArith Bool List Permutation.
From Verif Require Import Base F64 Coordinate Segment Polygon Polyline Periodicity Graph Visgraph Overlay Sweep SpecGeom SweepMaps SweepGen Vectors ShortestPath Serializer SweepHashOrder Props_Path PyLayer.
Import ListNotations.
Local Open Scope Z_scope.

(** ** An arctangent to compute with: fixed point with 66 binary digits; the tangent is moved to within an eighth of zero
    by the angles with tangents 1/8, 3/8, 5/8 and 7/8 *)
Definition one : Z := 73786976294838206464.
Fixpoint atan_series (n : nat) (k x x2 : Z) : Z :=
  match n with O => 0 | S n' => x / k - atan_series n' (k + 2) (x * x2 / one) x2 end.
Definition atan_unit (a b : Z) : Z :=   (* 0 <= a <= b *)
  let '(m, angle) := if 4 * a <=? b then (1, 9175779034766620441) else if 2 * a <=? b then (3, 26472602942537926887)
    else if 4 * a <=? 3 * b then (5, 41217354439568293485) else (7, 53040292142099364303) in
  let x := (8 * a - m * b) * one / (8 * b + m * a) in angle + atan_series 11 1 x (x * x / one).
Definition fixed_pi : Z := 231808622658467930956.
Definition atan2_fixed (y x : Z) : Z :=
  let a := Z.abs y in let b := Z.abs x in
  let q := if a =? 0 then 0 else if a <=? b then atan_unit a b else fixed_pi / 2 - atan_unit b a in
  (if y <? 0 then -1 else 1) * (if x <? 0 then fixed_pi - q else q).
Definition atan2_table (y x : Z) : f64 := f_lit (atan2_fixed y x) (-66).

(** the double of the literal n / 10^k: both are exact, so the quotient is the nearest double *)
Definition dec (n k : Z) : f64 := fdiv (f_of_Z n) (f_of_Z (10 ^ k)).
Definition deg (x y : f64) : coord := match coord_of_degrees x y with Ok c => c | _ => mkC 1 1 end.
Definition poly (vs : list coord) : polygon := match make_polygon vs with Ok p => p | _ => mkP [] end.

Definition pgeo_b (c : coord) : bool := (Z.abs (lon c) <=? 540000001) && (Z.abs (lat c) <=? 90000000).
Lemma pgeo_b_ok c : pgeo_b c = true -> pgeo c.
Proof. intros H. apply andb_prop in H. destruct H as [A B]. split; apply Z.leb_le; assumption. Qed.

(** the same elements, each as often *)
Section Same.
Context {A : Type} (eqb : A -> A -> bool).
Fixpoint drop_one (x : A) (l : list A) : option (list A) :=
  match l with [] => None | y :: l' => if eqb x y then Some l' else match drop_one x l' with Some r => Some (y :: r) | None => None end end.
Fixpoint same_members (l m : list A) : bool :=
  match l with [] => match m with [] => true | _ => false end | x :: l' => match drop_one x m with Some m' => same_members l' m' | None => false end end.
End Same.
Definition visible_eqb (a b : visible) : bool := coord_eqb (v_coord a) (v_coord b) && Bool.eqb (v_across a) (v_across b).
Definition sees (ps : list polygon) (observer : coord) (half : bool) (expected : list visible) : bool :=
  match get_visible_vertices atan2_table plain_orders (vistree_of_polygons ps) observer half with
  | Ok l => same_members visible_eqb l expected
  | _ => false
  end.
(** the same with each angle computed once *)
Definition key (o c : coord) : coord * f64 := (c, match coord_sub c o with Ok v => angle_to_horizontal atan2_table v | _ => f_0 end).
Definition less_key (o : coord) (x y : coord * f64) : bool :=
  if coord_eqb (fst x) o then true else if coord_eqb (fst y) o then false else
  match (v1 <- coord_sub (fst x) o ;; v2 <- coord_sub (fst y) o ;; d <- dot_md v1 v2 ;; t <- vector_orientation v1 v2 ;;
         Ok (if negb (orientation_eqb t COLLINEAR) || (d <? 0) then fltb (snd x) (snd y) else fltb (magnitude_squared v1) (magnitude_squared v2))) with
  | Ok b => b
  | _ => false
  end.
Lemma less_key_ok o a b : less_key o (key o a) (key o b) = less_b atan2_table o a b.
Proof.
  unfold less_key, less_b, angle_less, key. cbn [fst snd]. destruct (coord_eqb a o); [reflexivity|]. destruct (coord_eqb b o); [reflexivity|].
  destruct (coord_sub a o) as [v1| |]; cbn [bind]; [|reflexivity..]. destruct (coord_sub b o) as [v2| |]; cbn [bind]; [|reflexivity..].
  destruct (dot_md v1 v2) as [d| |]; cbn [bind]; [|reflexivity..]. destruct (vector_orientation v1 v2) as [t| |]; cbn [bind]; [|reflexivity..].
  destruct (negb (orientation_eqb t COLLINEAR) || (d <? 0)); reflexivity.
Qed.
Fixpoint insert_key (o : coord) (x : coord * f64) (l : list (coord * f64)) : list (coord * f64) :=
  match l with [] => [x] | y :: l' => if less_key o x y then x :: l else y :: insert_key o x l' end.
Definition sort_keys (o : coord) (l : list coord) : list coord := map fst (fold_right (insert_key o) [] (map (key o) l)).
Lemma insert_key_ok o c l : insert_key o (key o c) (map (key o) l) = map (key o) (insert_by (less_b atan2_table o) c l).
Proof. induction l as [|x l IH]; [reflexivity|]. cbn [map insert_key insert_by]. rewrite less_key_ok, IH. destruct (less_b atan2_table o c x); reflexivity. Qed.
Lemma sort_keys_ok o l : sort_keys o l = isort (less_b atan2_table o) l.
Proof.
  unfold sort_keys, isort. enough (E : fold_right (insert_key o) [] (map (key o) l) = map (key o) (fold_right (insert_by (less_b atan2_table o)) [] l))
    by (rewrite E, map_map; apply map_id).
  induction l as [|c l IH]; [reflexivity|]. cbn [map fold_right]. rewrite IH. apply insert_key_ok.
Qed.
Definition quick_vis (ps : list polygon) (o : coord) (half : bool) : res (list visible) :=
  match incident_map ps with
  | [] => Ok []
  | m => init <- get_tangent_vector (initial_scanline o) ;; oe <- initial_edges o (vt_segments (vistree_of_polygons ps)) ;;
         sweep m init o half (sort_keys o (map fst m)) oe
  end.
Definition on_the_map (ps : list polygon) (o : coord) : bool := pgeo_b o && forallb pgeo_b (map fst (incident_map ps)).
Lemma quick_vis_ok ps o half : on_the_map ps o = true -> get_visible_vertices atan2_table plain_orders (vistree_of_polygons ps) o half = quick_vis ps o half.
Proof.
  unfold on_the_map, quick_vis, get_visible_vertices, visible_from. cbn [vt_map vistree_of_polygons o_vertices o_segments o_sort plain_orders]. intros H.
  apply andb_prop in H. destruct H as [Ho Hv]. rewrite sort_total; [|apply pgeo_b_ok, Ho|intros v I; apply pgeo_b_ok; rewrite forallb_forall in Hv; apply Hv, I].
  destruct (incident_map ps) as [|x m]; [reflexivity|]. rewrite sort_keys_ok. reflexivity.
Qed.
Definition sees_quickly (ps : list polygon) (o : coord) (half : bool) (expected : list visible) : bool :=
  on_the_map ps o && match quick_vis ps o half with Ok l => same_members visible_eqb l expected | _ => false end.
Lemma seen_quickly ps o half expected : sees_quickly ps o half expected = true -> sees ps o half expected = true.
Proof. unfold sees_quickly, sees. intros H. apply andb_prop in H. destruct H as [M R]. rewrite (quick_vis_ok ps o half M). exact R. Qed.

(** ** visgraph/test_vistree_generator.cpp *)
(** 26: Vistree Generator get visible vertices from root *)
Example vistree_26 : sees [poly [deg (dec 1 0) (dec 0 0); deg (dec 0 0) (dec 1 0); deg (dec (-1) 0) (dec 0 0); deg (dec (-1) 0) (dec (-1) 0); deg (dec 0 0) (dec (-1) 0); deg (dec 3 1) (dec (-5) 1)]; poly [deg (dec 3 0) (dec (-1) 0); deg (dec 2 0) (dec (-2) 0); deg (dec 29 1) (dec (-3) 0); deg (dec 3 0) (dec (-3) 0); deg (dec 4 0) (dec (-2) 0)]] (deg (dec 1 0) (dec 0 0)) false [mkV (deg (dec 0 0) (dec (-1) 0)) false; mkV (deg (dec 2 0) (dec (-2) 0)) false; mkV (deg (dec 3 0) (dec (-1) 0)) false; mkV (deg (dec 0 0) (dec 1 0)) false; mkV (deg (dec 3 1) (dec (-5) 1)) false] = true.
Proof. apply seen_quickly. vm_compute. reflexivity. Qed.
(** 60: Vistree Generator get visible vertices from root half scan *)
Example vistree_60 : sees [poly [deg (dec 1 0) (dec 0 0); deg (dec 0 0) (dec 1 0); deg (dec (-1) 0) (dec 0 0); deg (dec (-1) 0) (dec (-1) 0); deg (dec 0 0) (dec (-1) 0); deg (dec 3 1) (dec (-5) 1)]; poly [deg (dec 3 0) (dec (-1) 0); deg (dec 2 0) (dec (-2) 0); deg (dec 29 1) (dec (-3) 0); deg (dec 3 0) (dec (-3) 0); deg (dec 4 0) (dec (-2) 0)]] (deg (dec 1 0) (dec 0 0)) true [mkV (deg (dec 0 0) (dec 1 0)) false] = true.
Proof. apply seen_quickly. vm_compute. reflexivity. Qed.
(** 91: Vistree Generator get visible vertices from root root on edge *)
Example vistree_91 : sees [poly [deg (dec 1 0) (dec 0 0); deg (dec 0 0) (dec 1 0); deg (dec (-1) 0) (dec 0 0); deg (dec (-1) 0) (dec (-1) 0); deg (dec 0 0) (dec (-1) 0); deg (dec 3 1) (dec (-5) 1)]] (deg (dec 5 1) (dec 5 1)) false [mkV (deg (dec 1 0) (dec 0 0)) false; mkV (deg (dec 0 0) (dec 1 0)) false] = true.
Proof. apply seen_quickly. vm_compute. reflexivity. Qed.
(** 114: Vistree Generator get visible vertices from root isolated *)
Example vistree_114 : sees [poly [deg (dec 1 0) (dec 0 0); deg (dec 0 0) (dec 1 0); deg (dec (-1) 0) (dec 0 0); deg (dec (-1) 0) (dec (-1) 0); deg (dec 0 0) (dec (-1) 0); deg (dec 3 1) (dec (-5) 1)]; poly [deg (dec 3 0) (dec (-1) 0); deg (dec 2 0) (dec (-2) 0); deg (dec 29 1) (dec (-3) 0); deg (dec 3 0) (dec (-3) 0); deg (dec 4 0) (dec (-2) 0)]] (deg (dec 3 0) (dec (-3) 0)) false [mkV (deg (dec 29 1) (dec (-3) 0)) false; mkV (deg (dec 4 0) (dec (-2) 0)) false] = true.
Proof. apply seen_quickly. vm_compute. reflexivity. Qed.
(** 145: Vistree Generator get visible vertices from concave root *)
Example vistree_145 : sees [poly [deg (dec 1 0) (dec 0 0); deg (dec 0 0) (dec 1 0); deg (dec (-1) 0) (dec 0 0); deg (dec (-1) 0) (dec (-1) 0); deg (dec 0 0) (dec (-1) 0); deg (dec 3 1) (dec (-5) 1)]; poly [deg (dec 3 0) (dec (-1) 0); deg (dec 2 0) (dec (-2) 0); deg (dec 29 1) (dec (-3) 0); deg (dec 3 0) (dec (-3) 0); deg (dec 4 0) (dec (-2) 0)]] (deg (dec 3 1) (dec (-5) 1)) false [mkV (deg (dec 2 0) (dec (-2) 0)) false; mkV (deg (dec 29 1) (dec (-3) 0)) false; mkV (deg (dec 3 0) (dec (-1) 0)) false; mkV (deg (dec 0 0) (dec (-1) 0)) false; mkV (deg (dec 1 0) (dec 0 0)) false] = true.
Proof. apply seen_quickly. vm_compute. reflexivity. Qed.
(** 179: Vistree Generator get visible vertices from concave root 2 *)
Example vistree_179 : sees [poly [deg (dec 15 1) (dec 1 0); deg (dec (-15) 1) (dec 1 0); deg (dec (-15) 1) (dec (-2) 0); deg (dec (-1) 0) (dec (-1) 0); deg (dec 0 0) (dec 0 0); deg (dec 1 0) (dec (-1) 0); deg (dec 15 1) (dec (-2) 0)]] (deg (dec 0 0) (dec 0 0)) false [mkV (deg (dec (-15) 1) (dec (-2) 0)) false; mkV (deg (dec (-1) 0) (dec (-1) 0)) false; mkV (deg (dec 1 0) (dec (-1) 0)) false; mkV (deg (dec 15 1) (dec (-2) 0)) false] = true.
Proof. apply seen_quickly. vm_compute. reflexivity. Qed.
(** 204: Vistree Generator get visible vertices from concave root 3 *)
Example vistree_204 : sees [poly [deg (dec 15 1) (dec 1 0); deg (dec (-15) 1) (dec 1 0); deg (dec (-15) 1) (dec (-2) 0); deg (dec (-1) 0) (dec (-1) 0); deg (dec 0 0) (dec 0 0); deg (dec 1 0) (dec (-1) 0); deg (dec 15 1) (dec (-2) 0)]] (deg (dec 1 0) (dec (-1) 0)) false [mkV (deg (dec 0 0) (dec 0 0)) false; mkV (deg (dec 15 1) (dec (-2) 0)) false; mkV (deg (dec (-1) 0) (dec (-1) 0)) false; mkV (deg (dec (-15) 1) (dec (-2) 0)) false] = true.
Proof. apply seen_quickly. vm_compute. reflexivity. Qed.
(** 229: Vistree Generator collinear *)
Example vistree_229 : sees [poly [deg (dec 0 0) (dec 0 0); deg (dec 2 0) (dec 2 0)]] (deg (dec 0 0) (dec 0 0)) false [mkV (deg (dec 2 0) (dec 2 0)) false] = true.
Proof. apply seen_quickly. vm_compute. reflexivity. Qed.
(** 246: Vistree Generator collinear above *)
Example vistree_246 : sees [poly [deg (dec 0 0) (dec 0 0); deg (dec 1 0) (dec 1 0); deg (dec 2 0) (dec (-1) 0); deg (dec (-2) 0) (dec (-1) 0); deg (dec (-1) 0) (dec 1 0)]; poly [deg (dec 0 0) (dec 2 0); deg (dec 1 0) (dec 3 0); deg (dec 0 0) (dec 4 0); deg (dec (-1) 0) (dec 3 0)]] (deg (dec 0 0) (dec 0 0)) false [mkV (deg (dec (-1) 0) (dec 3 0)) false; mkV (deg (dec (-1) 0) (dec 1 0)) false; mkV (deg (dec 0 0) (dec 2 0)) false; mkV (deg (dec 1 0) (dec 1 0)) false; mkV (deg (dec 1 0) (dec 3 0)) false] = true.
Proof. apply seen_quickly. vm_compute. reflexivity. Qed.
(** 275: Vistree generator collinear 2 *)
Example vistree_275 : sees [poly [deg (dec 0 0) (dec 1 0); deg (dec 1 0) (dec 0 0); deg (dec (-1) 0) (dec (-1) 0); deg (dec 0 0) (dec 0 0)]; poly [deg (dec (-10) 0) (dec (-1) 2); deg (dec (-201) 1) (dec (-1) 0); deg (dec (-20) 0) (dec 0 0); deg (dec (-20) 0) (dec (-2) 2)]; poly [deg (f_lit (-3342515357235133) (-43)) (dec (-38) 2); deg (f_lit (-3430476287457213) (-43)) (dec (-39) 2); deg (f_lit (-3386495822346173) (-43)) (dec (-5) 0)]] (deg (dec 0 0) (dec 0 0)) false [mkV (deg (dec (-201) 1) (dec (-1) 0)) false; mkV (deg (dec (-20) 0) (dec 0 0)) false; mkV (deg (dec (-10) 0) (dec (-1) 2)) false; mkV (deg (dec (-1) 0) (dec (-1) 0)) false; mkV (deg (dec 0 0) (dec 1 0)) false] = true.
Proof. apply seen_quickly. vm_compute. reflexivity. Qed.
(** 312: Vistree generator collinear 3 *)
Example vistree_312 : sees [poly [deg (dec 0 0) (dec 1 0); deg (dec 1 0) (dec 0 0); deg (dec (-1) 0) (dec (-1) 0); deg (dec 0 0) (dec 0 0)]; poly [deg (dec (-10) 0) (dec (-1) 3); deg (dec (-201) 1) (dec (-1) 0); deg (dec (-20) 0) (dec 0 0); deg (dec (-20) 0) (dec (-2) 3)]; poly [deg (f_lit (-3342515357235133) (-43)) (dec (-38) 3); deg (f_lit (-3430476287457213) (-43)) (dec (-3905) 5); deg (f_lit (-3386495822346173) (-43)) (dec (-5) 0)]] (deg (dec 0 0) (dec 0 0)) false [mkV (deg (dec (-201) 1) (dec (-1) 0)) false; mkV (deg (dec (-20) 0) (dec 0 0)) false; mkV (deg (dec (-10) 0) (dec (-1) 3)) false; mkV (deg (dec (-1) 0) (dec (-1) 0)) false; mkV (deg (dec 0 0) (dec 1 0)) false] = true.
Proof. apply seen_quickly. vm_compute. reflexivity. Qed.
(** 349: Vistree generator collinear 4 *)
Example vistree_349 : sees [poly [deg (dec (-1) 0) (dec (-5) 1); deg (dec (-15) 1) (dec (-1) 0); deg (dec (-2) 0) (dec 1 0); deg (dec (-25) 1) (dec (-2) 0); deg (dec (-5) 1) (dec (-1) 0)]; poly [deg (dec (-4) 0) (dec (-2) 0); deg (dec (-5) 0) (dec (-35) 1); deg (dec (-3) 0) (dec (-25) 1)]] (deg (dec 0 0) (dec 0 0)) false [mkV (deg (dec (-2) 0) (dec 1 0)) false; mkV (deg (dec (-1) 0) (dec (-5) 1)) false; mkV (deg (dec (-5) 1) (dec (-1) 0)) false] = true.
Proof. apply seen_quickly. vm_compute. reflexivity. Qed.
(** 378: Vistree generator collinear 5 *)
Example vistree_378 : sees [poly [deg (dec (-1) 0) (dec (-5) 1); deg (dec (-15) 1) (dec (-75) 2); deg (dec (-2) 0) (dec 1 0); deg (dec (-25) 1) (dec (-2) 0); deg (dec (-5) 1) (dec (-1) 0)]; poly [deg (dec (-4) 0) (dec (-2) 0); deg (dec (-5) 0) (dec (-35) 1); deg (dec (-3) 0) (dec (-25) 1)]] (deg (dec 0 0) (dec 0 0)) false [mkV (deg (dec (-2) 0) (dec 1 0)) false; mkV (deg (dec (-1) 0) (dec (-5) 1)) false; mkV (deg (dec (-5) 1) (dec (-1) 0)) false] = true.
Proof. apply seen_quickly. vm_compute. reflexivity. Qed.
(** 407: Vistree generator collinear 6 *)
Example vistree_407 : sees [poly [deg (dec (-1) 0) (dec (-5) 1); deg (dec (-15) 1) (dec (-1) 0); deg (dec (-125) 2) (dec (-625) 3); deg (dec (-2) 0) (dec 1 0); deg (dec (-25) 1) (dec (-2) 0); deg (dec (-5) 1) (dec (-1) 0)]; poly [deg (dec (-4) 0) (dec (-2) 0); deg (dec (-5) 0) (dec (-35) 1); deg (dec (-3) 0) (dec (-25) 1)]] (deg (dec 0 0) (dec 0 0)) false [mkV (deg (dec (-2) 0) (dec 1 0)) false; mkV (deg (dec (-1) 0) (dec (-5) 1)) false; mkV (deg (dec (-5) 1) (dec (-1) 0)) false] = true.
Proof. apply seen_quickly. vm_compute. reflexivity. Qed.
(** 437: Vistree generator enclosed periodic *)
Example vistree_437 : sees [poly [deg (f_lit (3175389589813181) (-43)) (dec 0 0); deg (f_lit (3175389589813181) (-43)) (dec 10 0); deg (f_lit (3184185682835389) (-43)) (dec 10 0); deg (f_lit (3184185682835389) (-43)) (dec (-1) 0); deg (f_lit (3149001310746557) (-43)) (dec (-1) 0); deg (f_lit (3149001310746557) (-43)) (dec 10 0); deg (f_lit (3157797403768765) (-43)) (dec 10 0); deg (f_lit (3157797403768765) (-43)) (dec 0 0)]; poly [deg (dec 3 0) (dec (-2) 0); deg (dec 4 0) (dec (-3) 0); deg (dec 3 0) (dec (-4) 0); deg (dec 2 0) (dec (-3) 0)]] (deg (dec 360 0) (dec 1 0)) false [mkV (deg (dec (-1) 0) (dec 10 0)) true; mkV (deg (dec (-1) 0) (dec 0 0)) true; mkV (deg (dec 1 0) (dec 0 0)) true; mkV (deg (dec 1 0) (dec 10 0)) true] = true.
Proof. apply seen_quickly. vm_compute. reflexivity. Qed.
(** 471: Vistree generator enclosed periodic 2 *)
Example vistree_471 : sees [poly [deg (dec 1 0) (dec 0 0); deg (dec 1 0) (dec 10 0); deg (dec 2 0) (dec 10 0); deg (dec 2 0) (dec (-1) 0); deg (dec (-2) 0) (dec (-1) 0); deg (dec (-2) 0) (dec 10 0); deg (dec (-1) 0) (dec 10 0); deg (dec (-1) 0) (dec 0 0)]; poly [deg (dec 363 0) (dec (-2) 0); deg (dec 364 0) (dec (-3) 0); deg (dec 363 0) (dec (-4) 0); deg (dec 362 0) (dec (-3) 0)]] (deg (dec 0 0) (dec 1 0)) false [mkV (deg (dec (-1) 0) (dec 10 0)) false; mkV (deg (dec (-1) 0) (dec 0 0)) false; mkV (deg (dec 1 0) (dec 0 0)) false; mkV (deg (dec 1 0) (dec 10 0)) false] = true.
Proof. apply seen_quickly. vm_compute. reflexivity. Qed.
(** 505: Vistree generator enclosed periodic 3 *)
Example vistree_505 : sees [poly [deg (dec 1 0) (dec 0 0); deg (dec 1 0) (dec 10 0); deg (dec 2 0) (dec 10 0); deg (dec 2 0) (dec (-1) 0); deg (dec (-2) 0) (dec (-1) 0); deg (dec (-2) 0) (dec 10 0); deg (dec (-1) 0) (dec 10 0); deg (dec (-1) 0) (dec 0 0)]; poly [deg (dec (-357) 0) (dec (-2) 0); deg (dec (-356) 0) (dec (-3) 0); deg (dec (-357) 0) (dec (-4) 0); deg (dec (-358) 0) (dec (-3) 0)]] (deg (dec 0 0) (dec 1 0)) false [mkV (deg (dec (-1) 0) (dec 10 0)) false; mkV (deg (dec (-1) 0) (dec 0 0)) false; mkV (deg (dec 1 0) (dec 0 0)) false; mkV (deg (dec 1 0) (dec 10 0)) false] = true.
Proof. apply seen_quickly. vm_compute. reflexivity. Qed.
(** 540: Vistree generator boundaries *)
Example vistree_540 : sees [poly [deg (dec 180 0) (dec 90 0); deg (dec 180 0) (dec (-90) 0); deg (dec (-180) 0) (dec (-90) 0); deg (dec (-180) 0) (dec 90 0)]; poly [deg (f_lit (4749890240788413) (-43)) (dec 90 0); deg (f_lit (4749890240788413) (-43)) (dec (-90) 0); deg (f_lit (1583296752793533) (-43)) (dec (-90) 0); deg (f_lit (1583296752793533) (-43)) (dec 90 0)]; poly [deg (f_lit (-1583296752793533) (-43)) (dec 90 0); deg (f_lit (-1583296752793533) (-43)) (dec (-90) 0); deg (f_lit (-4749890240788413) (-43)) (dec (-90) 0); deg (f_lit (-4749890240788413) (-43)) (dec 90 0)]] (deg (dec (-180) 0) (dec 90 0)) false [mkV (deg (dec (-180) 0) (dec 90 0)) true; mkV (deg (dec (-180) 0) (dec (-90) 0)) false; mkV (deg (dec 180 0) (dec (-90) 0)) true; mkV (deg (dec 180 0) (dec 90 0)) true; mkV (deg (dec 180 0) (dec 90 0)) false] = true.
Proof. apply seen_quickly. vm_compute. reflexivity. Qed.
(** 577: Vistree generator directly under V shape *)
Example vistree_577 : sees [poly [deg (dec 0 0) (dec 0 0); deg (dec (-5) 1) (dec 2 0); deg (dec (-1) 0) (dec 2 0); deg (dec (-1) 0) (dec 0 0); deg (dec (-1) 0) (dec (-1) 0); deg (dec (-75) 2) (dec (-3) 0); deg (dec (-25) 2) (dec (-4) 0); deg (dec 0 0) (dec (-2) 0); deg (dec 1 0) (dec (-1) 0); deg (dec 1 0) (dec 5 1); deg (dec 2 0) (dec 1 0); deg (dec 15 1) (dec 3 0); deg (dec 0 0) (dec 2 0)]] (deg (dec 0 0) (dec 0 0)) false [mkV (deg (dec (-5) 1) (dec 2 0)) false; mkV (deg (dec 0 0) (dec 2 0)) false] = true.
Proof. apply seen_quickly. vm_compute. reflexivity. Qed.
(** 606: Vistree generator parallel line *)
Example vistree_606_1 : sees [poly [deg (dec (-57008) 5) (dec 3820505 5); deg (dec (-514999) 6) (dec 38201167 6); deg (dec (-514999) 6) (dec 383399 4); deg (dec (-4049) 4) (dec 383704 4); deg (dec (-4049) 4) (dec 449903 4); deg (dec (-514999) 6) (dec 449903 4); deg (dec (-514999) 6) (dec 44809999 6); deg (dec (-56505) 5) (dec 4485002 5); deg (dec (-57005) 5) (dec 449903 4); deg (dec (-57008) 5) (dec 449903 4)]] (deg (dec (-514999) 6) (dec 38201167 6)) false [mkV (deg (dec (-57008) 5) (dec 3820505 5)) false; mkV (deg (dec (-514999) 6) (dec 383399 4)) false; mkV (deg (dec (-4049) 4) (dec 383704 4)) false] = true.
Proof. apply seen_quickly. vm_compute. reflexivity. Qed.
(** 606: Vistree generator parallel line *)
Example vistree_606_2 : sees [poly [deg (dec (-57008) 5) (dec 3820505 5); deg (dec (-514999) 6) (dec 38201167 6); deg (dec (-514999) 6) (dec 383399 4); deg (dec (-4049) 4) (dec 383704 4); deg (dec (-4049) 4) (dec 449903 4); deg (dec (-514999) 6) (dec 449903 4); deg (dec (-514999) 6) (dec 44809999 6); deg (dec (-56505) 5) (dec 4485002 5); deg (dec (-57005) 5) (dec 449903 4); deg (dec (-57008) 5) (dec 449903 4)]] (deg (dec (-514999) 6) (dec 44809999 6)) false [mkV (deg (dec (-514999) 6) (dec 449903 4)) false; mkV (deg (dec (-56505) 5) (dec 4485002 5)) false; mkV (deg (dec (-57005) 5) (dec 449903 4)) false] = true.
Proof. apply seen_quickly. vm_compute. reflexivity. Qed.
(** 644: Vistree generator parallel line 2 *)
Example vistree_644 : sees [poly [mkC (0) (0); mkC (1) (0); mkC (1) (1); mkC (0) (1); mkC (-1) (1); mkC (-1) (-1); mkC (0) (-1)]] (mkC (0) (-1)) false [mkV (mkC (-1) (-1)) false; mkV (mkC (0) (0)) false; mkV (mkC (1) (0)) false] = true.
Proof. apply seen_quickly. vm_compute. reflexivity. Qed.
(** 668: Vistree generator sees neighbors *)
Example vistree_668 : sees [poly [deg (dec 11777472 6) (dec (-15785472) 6); deg (dec 11732028 6) (dec (-15890833) 6); deg (dec 11808694 6) (dec (-16017527) 6); deg (dec 1188 2) (dec (-15787111) 6)]] (deg (dec 11732028 6) (dec (-15890833) 6)) false [mkV (deg (dec 11808694 6) (dec (-16017527) 6)) false; mkV (deg (dec 11777472 6) (dec (-15785472) 6)) false] = true.
Proof. apply seen_quickly. vm_compute. reflexivity. Qed.

(** ** visgraph/test_visgraph_generator.cpp *)
Definition generated (ps : list polygon) : res graph := generate (vis_periodic atan2_table plain_orders ps) ps.
Definition generated_quickly (ps : list polygon) : res graph :=
  pps <- make_polygons_periodic ps ;;
  if forallb (on_the_map pps) (polygon_vertices ps) then generate (fun v => quick_vis pps v true) ps else UB BadCast.
Lemma generated_quickly_ok ps g : generated_quickly ps = Ok g -> generated ps = Ok g.
Proof.
  unfold generated_quickly, generated. intros H. destruct (make_polygons_periodic ps) as [pps| |] eqn:E; try discriminate H. cbn [bind] in H.
  destruct (forallb (on_the_map pps) (polygon_vertices ps)) eqn:F; [|discriminate H]. rewrite <- H. apply generate_same. intros v I.
  unfold vis_periodic. rewrite E. cbn [bind]. apply quick_vis_ok. rewrite forallb_forall in F. apply F, I.
Qed.
Definition add_edges (source : coord) (neighbors : list visible) (g : res graph) : res graph :=
  g0 <- g ;; foldM (fun g v => add_edge g source (v_coord v) (v_across v)) neighbors g0.
Definition same_graph (g h : res graph) : bool :=
  match (a <- g ;; b <- h ;; graph_eqb hash_sort a b) with Ok b => b | _ => false end.
Lemma quickly_same ps h : same_graph (generated_quickly ps) h = true -> same_graph (generated ps) h = true.
Proof.
  intros H. destruct (generated_quickly ps) as [g| |] eqn:E; try discriminate H. rewrite (generated_quickly_ok ps g E). exact H.
Qed.
Definition d (x y : Z) : coord := deg (dec x 0) (dec y 0).
Definition p1 := poly [d 1 0; d 0 1; d (-1) 0].
Definition p2 := poly [d 5 0; d 3 0; d 4 2].
Definition normal_case : res graph :=
  add_edges (d 1 0) [mkV (d 3 0) false; mkV (d 0 1) false; mkV (d 4 2) false; mkV (d (-1) 0) false]
  (add_edges (d 0 1) [mkV (d 1 0) false; mkV (d 3 0) false; mkV (d 5 0) true; mkV (d 4 2) false; mkV (d (-1) 0) false]
  (add_edges (d 4 2) [mkV (d 1 0) false; mkV (d 3 0) false; mkV (d 5 0) false; mkV (d 0 1) false; mkV (d (-1) 0) true]
  (add_edges (d 3 0) [mkV (d 1 0) false; mkV (d 5 0) false; mkV (d 0 1) false; mkV (d 4 2) false; mkV (d (-1) 0) false]
  (add_edges (d (-1) 0) [mkV (d 1 0) false; mkV (d 3 0) false; mkV (d 5 0) true; mkV (d 0 1) false; mkV (d 4 2) true]
  (add_edges (d 5 0) [mkV (d 3 0) false; mkV (d 0 1) true; mkV (d 4 2) false; mkV (d (-1) 0) true] (Ok (make_graph [p1; p2]))))))).
Example visgraph_16 : same_graph (generated [p1; p2]) normal_case = true.
Proof. apply quickly_same. vm_compute. reflexivity. Qed.
Definition boundary : polygon := poly [d 180 90; d 180 (-90); d (-180) (-90); d (-180) 90].
Definition boundary_case : res graph :=
  add_edges (d (-180) (-90)) [mkV (d 180 90) true; mkV (d (-180) 90) false; mkV (d 180 (-90)) false]
  (add_edges (d 180 90) [mkV (d (-180) 90) false; mkV (d (-180) (-90)) true; mkV (d 180 (-90)) false]
  (add_edges (d (-180) 90) [mkV (d 180 90) false; mkV (d (-180) (-90)) false; mkV (d 180 (-90)) true]
  (add_edges (d 180 (-90)) [mkV (d 180 90) false; mkV (d (-180) 90) true; mkV (d (-180) (-90)) false] (Ok (make_graph [boundary]))))).
Example visgraph_95 : same_graph (generated [boundary]) boundary_case = true.
Proof. apply quickly_same. vm_compute. reflexivity. Qed.
(** the range covers all vertices, in any order; the range of one vertex is another graph *)
Example visgraph_16_range : same_graph (p <- make_polygons_periodic [p1; p2] ;; generate_with_shuffled_range (fun v => quick_vis p v true) [p1; p2] 0 6 (rev (polygon_vertices [p1; p2]))) normal_case = true /\
  same_graph (p <- make_polygons_periodic [p1; p2] ;; generate_with_shuffled_range (fun v => quick_vis p v true) [p1; p2] 0 1 (polygon_vertices [p1; p2])) normal_case = false.
Proof. split; vm_compute; reflexivity. Qed.

(** ** shortest_path/test_shortest_path_computer.cpp.  The spatial index answers as S2 would in the plane: edges cross
    properly or share an end (CrossingType::ALL), a point on the boundary is not contained (S2VertexModel::OPEN). *)
Definition side (a b c : coord) : Z := Z.sgn ((lon b - lon a) * (lat c - lat a) - (lat b - lat a) * (lon c - lon a)).
Definition crosses_b (s t : segment) : bool :=
  ((side (e1 s) (e2 s) (e1 t) * side (e1 s) (e2 s) (e2 t) <? 0) && (side (e1 t) (e2 t) (e1 s) * side (e1 t) (e2 t) (e2 s) <? 0)) ||
  coord_eqb (e1 s) (e1 t) || coord_eqb (e1 s) (e2 t) || coord_eqb (e2 s) (e1 t) || coord_eqb (e2 s) (e2 t).
Definition edges_of (ps : list polygon) : list segment := flat_map get_line_segments ps.
(** strictly inside: an odd number of edges to the east, and on none *)
Definition on_edge (c : coord) (s : segment) : bool :=
  (side (e1 s) (e2 s) c =? 0) && (Z.min (lon (e1 s)) (lon (e2 s)) <=? lon c) && (lon c <=? Z.max (lon (e1 s)) (lon (e2 s))) &&
  (Z.min (lat (e1 s)) (lat (e2 s)) <=? lat c) && (lat c <=? Z.max (lat (e1 s)) (lat (e2 s))).
Definition east_of (c : coord) (s : segment) : bool :=
  if lat (e1 s) <=? lat c then (lat c <? lat (e2 s)) && (side (e1 s) (e2 s) c =? 1) else (lat (e2 s) <=? lat c) && (side (e1 s) (e2 s) c =? -1).
Definition inside_b (p : polygon) (c : coord) : bool :=
  let es := get_line_segments p in negb (existsb (on_edge c) es) && Nat.odd (length (filter (east_of c) es)).
(** the nearest point of a segment, to the nearest microdegree *)
Definition foot (s : segment) (c : coord) : coord :=
  let ux := lon (e2 s) - lon (e1 s) in let uy := lat (e2 s) - lat (e1 s) in
  let n := ux * ux + uy * uy in
  let t := Z.max 0 (Z.min n ((lon c - lon (e1 s)) * ux + (lat c - lat (e1 s)) * uy)) in
  mkC (lon (e1 s) + (2 * t * ux + n) / (2 * n)) (lat (e1 s) + (2 * t * uy + n) / (2 * n)).
Definition far (c : coord) (s : segment) : Z := let f := foot s c in (lon c - lon f) * (lon c - lon f) + (lat c - lat f) * (lat c - lat f).
Fixpoint nearest (c : coord) (best : segment) (l : list segment) : segment :=
  match l with [] => best | s :: l' => nearest c (if far c s <? far c best then s else best) l' end.
Definition plane_index (ps : list polygon) : index :=
  mkI (fun c => existsb (fun p => inside_b p c) ps)
      (fun c => match edges_of ps with [] => Throw EmptyIndex | s :: l => Ok (nearest c s l) end)
      (fun s => filter (crosses_b s) (edges_of ps))
      foot.
Definition plain_env (ps : list polygon) : env := mkEnv (plane_index ps) (fun c => quick_vis ps c false) no_rows (fun _ => first_best f_1).
Definition f_inf : f64 := Flocq.IEEE754.BinarySingleNaN.B754_infinity false.
Definition query (ps : list polygon) (a b : coord) (radius : f64) (correct : bool) : option (res (list coord)) :=
  match generated_quickly ps with Ok g => shortest_path 60 (plain_env ps) g a b radius correct | _ => None end.
Definition path_is (r : option (res (list coord))) (l : list coord) : bool :=
  match r with Some (Ok p) => if list_eq_dec coord_dec p l then true else false | _ => false end.
Definition throws (r : option (res (list coord))) : bool := match r with Some (Throw _) => true | _ => false end.
Definition both_ways (ps : list polygon) (a b : coord) (correct : bool) (l : list coord) : bool :=
  match generated_quickly ps with
  | Ok g => path_is (shortest_path 60 (plain_env ps) g a b f_inf correct) l && path_is (shortest_path 60 (plain_env ps) g b a f_inf correct) (rev l)
  | _ => false
  end.
Example path_11 : both_ways [poly [d 1 0; deg (dec 0 0) (dec 15 1); d (-1) 0]; poly [d 4 0; d 3 1; d 2 0]] (d (-2) 0) (d 3 1) false [d (-2) 0; d (-1) 0; d 1 0; d 3 1] = true.
Proof. vm_compute. reflexivity. Qed.
Example path_38 : both_ways [poly [d 179 0; deg (dec 178 0) (dec 15 1); d 177 0]; poly [d 2 0; d 1 1; d 0 0]] (d 176 0) (d 1 1) false [d 176 0; d 1 1] = true.
Proof. vm_compute. reflexivity. Qed.
Example path_65 : both_ways [poly [mkC 1000 1000; mkC (-1000) 1000; mkC (-1000) (-1000); mkC 1000 (-1000)]] (mkC (-800) (-1000)) (mkC 800 (-1000)) true [mkC (-800) (-1000); mkC 800 (-1000)] = true.
Proof. vm_compute. reflexivity. Qed.
Example path_87 : both_ways [poly [mkC 1000 0; mkC 0 1000; mkC (-1000) 0; mkC 0 (-1000)]] (mkC (-300) (-300)) (mkC (-600) (-600)) true [mkC (-500) (-500); mkC (-600) (-600)] = true.
Proof. vm_compute. reflexivity. Qed.
Definition diamond := [poly [d 1 0; d 0 1; d (-1) 0; d 0 (-1)]].
Example path_112 : match generated_quickly diamond with
  | Ok g => match shortest_paths 60 (fun _ => plain_env diamond) g [(deg (dec (-15) 1) (dec 5 1), deg (dec 15 1) (dec 0 0)); (deg (dec (-15) 1) (dec (-5) 1), deg (dec 15 1) (dec 0 0)); (d 0 0, deg (dec 15 1) (dec 0 0))] f_inf false [0%nat; 1%nat; 2%nat] with
            | Some (Ok [mkBR (Some a) None; mkBR (Some b) None; mkBR None (Some _)]) =>
                path_is (Some (Ok a)) [deg (dec (-15) 1) (dec 5 1); d 0 1; deg (dec 15 1) (dec 0 0)] && path_is (Some (Ok b)) [deg (dec (-15) 1) (dec (-5) 1); d 0 (-1); deg (dec 15 1) (dec 0 0)]
            | _ => false
            end
  | _ => false
  end = true.
Proof. vm_compute. reflexivity. Qed.
Definition square := [poly [d 1 1; d 1 (-1); d (-1) (-1); d (-1) 1]].
Example path_153 : (match generated_quickly square with
  | Ok g => forallb (fun p => throws (shortest_path 60 (plain_env square) g (fst p) (snd p) f_inf false)) [(d 0 0, d 2 0); (d 0 0, deg (dec 5 1) (dec 0 0)); (d (-2) 0, d 0 0)]
  | _ => false
  end) = true.
Proof. vm_compute. reflexivity. Qed.
Example path_173 : path_is (query square (deg (dec (-75) 2) (dec 0 0)) (deg (dec 125 2) (dec (-1) 1)) f_inf true) [d (-1) 0; d (-1) (-1); d 1 (-1); deg (dec 125 2) (dec (-1) 1)] = true.
Proof. vm_compute. reflexivity. Qed.
Example path_197 : path_is (query [] (d 176 0) (d 1 1) f_inf false) [d 176 0; d 1 1] = true.
Proof. vm_compute. reflexivity. Qed.
Example path_207 : throws (query [poly [d 1 0; d 0 1; d (-1) 0]] (d (-2) 0) (d 1 1) (dec 1 0) false) = true.
Proof. vm_compute. reflexivity. Qed.

(** ** types/coordinate/test_coordinate.cpp; the last case (line 151) asks S2 and is not run *)
Definition is_coord (r : res coord) (c : coord) : bool := match r with Ok a => coord_eqb a c | _ => false end.
Definition is_orient (r : res orientation) (o : orientation) : bool := match r with Ok a => orientation_eqb a o | _ => false end.
Definition yes (r : res bool) : bool := match r with Ok b => b | _ => false end.
Definition no (r : res bool) : bool := match r with Ok b => negb b | _ => false end.
Definition factor_is (r : res (option f64)) (x : f64) : bool := match r with Ok (Some y) => feqb y x | _ => false end.
Definition no_factor (r : res (option f64)) : bool := match r with Ok None => true | _ => false end.
Definition num (n : Z) : f64 := f_of_Z n.
Example coordinate_11 : feqb (get_longitude (d 1 2)) (num 1) && feqb (get_latitude (d 1 2)) (num 2) = true.
Proof. vm_compute. reflexivity. Qed.
Example coordinate_17 : coord_eqb (d 1 2) (d 1 2) && negb (coord_eqb (d 1 2) (d 2 1)) = true.
Proof. vm_compute. reflexivity. Qed.
Example coordinate_29 : is_coord (coord_add (d 1 2) (d 3 4)) (d 4 6) && is_coord (coord_neg (d 1 2)) (d (-1) (-2)) && is_coord (coord_sub (d 1 2) (d 3 4)) (d (-2) (-2)) = true.
Proof. vm_compute. reflexivity. Qed.
Example coordinate_49 : feqb (dot_product (d 1 2) (d 3 4)) (dot_product (d 3 4) (d 1 2)) && feqb (dot_product (d 1 2) (d 3 4)) (num 11) = true.
Proof. vm_compute. reflexivity. Qed.
Example coordinate_57 : feqb (cross_product_magnitude (d 1 2) (d 3 4)) (num (-2)) && feqb (cross_product_magnitude (d 1 2) (d 2 4)) (num 0) &&
  feqb (cross_product_magnitude (d 1 2) (d (-2) (-4))) (num 0) = true.
Proof. vm_compute. reflexivity. Qed.
Example coordinate_78 : feqb (magnitude_squared (d 1 2)) (num 5) && is_coord (coord_mul (d 1 2) (num 2)) (d 2 4) = true.
Proof. vm_compute. reflexivity. Qed.
Example coordinate_90 : yes (parallel (d 1 2) (d 2 4)) && yes (parallel (d 1 2) (d (-1) (-2))) && no (parallel (d 1 2) (d (-1) 2)) = true.
Proof. vm_compute. reflexivity. Qed.
Example coordinate_101 : is_orient (vector_orientation (d 1 1) (d 1 2)) COUNTER_CLOCKWISE && is_orient (vector_orientation (d 1 1) (d 2 1)) CLOCKWISE &&
  is_orient (vector_orientation (d 1 1) (d 2 2)) COLLINEAR = true.
Proof. vm_compute. reflexivity. Qed.
Example coordinate_112 : factor_is (scalar_multiple_factor (d 1 2) (d 2 4)) (num 2) && factor_is (scalar_multiple_factor (d 2 4) (d 1 2)) (dec 5 1) &&
  factor_is (scalar_multiple_factor (d 1 2) (d (-1) (-2))) (num (-1)) && factor_is (scalar_multiple_factor (d 1 2) (d 0 0)) (num 0) &&
  factor_is (scalar_multiple_factor (d 0 0) (d 1 2)) (num 0) && no_factor (scalar_multiple_factor (d 1 2) (d (-1) 2)) && no_factor (scalar_multiple_factor (d 1 2) (d 1 (-2))) = true.
Proof. vm_compute. reflexivity. Qed.
(** [std::abs(x - y) < t] *)
Definition within_f (x y t : f64) : bool := fltb (fsub x y) t && fltb (fsub y x) t.
(** n quarters of pi, within the tolerance of the test *)
Definition quarters (n : Z) (c : coord) : bool := within_f (angle_to_horizontal atan2_table c) (f_lit (n * fixed_pi / 4) (-66)) (dec 1 6).
Example coordinate_129 : quarters 0 (d 1 0) && quarters 1 (d 1 1) && quarters 2 (d 0 1) && quarters 3 (d (-1) 1) && quarters 4 (d (-1) 0) &&
  quarters 5 (d (-1) (-1)) && quarters 6 (d 0 (-1)) && quarters 7 (d 1 (-1)) = true.
Proof. vm_compute. reflexivity. Qed.
Example coordinate_142 : (hash_coord (d 1 2) =? hash_coord (d 1 2)) && negb (hash_coord (d 1 2) =? hash_coord (deg (dec 101 2) (dec 201 2))) = true.
Proof. vm_compute. reflexivity. Qed.

(** ** types/line_segment/test_line_segment.cpp; for the projections the nearest point is the planar one *)
Definition meets (s t : segment) (c : coord) : bool := match intersection_with_segment s t with Ok (Some x) => coord_eqb x c | _ => false end.
Definition apart_b (s t : segment) : bool := match intersection_with_segment s t with Ok None => true | _ => false end.
Example line_segment_10 : coord_eqb (e1 (mkS (d 1 0) (d 0 1))) (d 1 0) && coord_eqb (e2 (mkS (d 1 0) (d 0 1))) (d 0 1) = true.
Proof. vm_compute. reflexivity. Qed.
Definition dh (x y : Z) : coord := deg (dec x 1) (dec y 1).
Example line_segment_19 : let s := mkS (d 1 2) (d 2 1) in
  meets s (mkS (d 1 1) (d 2 2)) (dh 15 15) && apart_b s (mkS (d 1 1) (dh 11 11)) && meets s (mkS (d 1 1) (d 1 2)) (d 1 2) && meets s (mkS (d 1 1) (d 2 1)) (d 2 1) &&
  apart_b s (mkS (d 1 1) (d 0 0)) && apart_b s (mkS (d 1 1) (d 0 2)) && apart_b s (mkS (dh 15 15) (dh 25 5)) && apart_b s (mkS (dh 15 15) (dh 5 25)) &&
  meets s (mkS (d 3 0) (d 2 1)) (d 2 1) && meets s (mkS (d 0 3) (d 1 2)) (d 1 2) = true.
Proof. vm_compute. reflexivity. Qed.
Example line_segment_46 : let seg1 := mkS (d 1 2) (d 2 1) in let seg2 := mkS (d 2 1) (d 1 2) in let seg3 := mkS (d 1 1) (d 2 1) in
  segment_eqb seg1 seg1 && segment_eqb seg2 seg1 && negb (segment_eqb seg1 seg3) = true.
Proof. vm_compute. reflexivity. Qed.
Example line_segment_59 : let s := mkS (d 1 0) (d 0 1) in
  is_orient (orientation_of_point_to_segment s (dh 3 2)) COUNTER_CLOCKWISE && is_orient (orientation_of_point_to_segment s (dh 5 5)) COLLINEAR &&
  is_orient (orientation_of_point_to_segment s (dh 7 8)) CLOCKWISE = true.
Proof. vm_compute. reflexivity. Qed.
Example line_segment_70 : let s := mkS (d 1 0) (d 0 1) in
  yes (on_segment s (d 1 0)) && yes (on_segment s (d 0 1)) && yes (on_segment s (dh 5 5)) && no (on_segment s (d 2 (-1))) && no (on_segment s (d (-1) 2)) &&
  no (on_segment s (d 0 0)) && no (on_segment s (d 1 1)) = true.
Proof. vm_compute. reflexivity. Qed.
(** across the antimeridian the shorter way *)
Definition short_foot (s : segment) (c : coord) : coord :=
  let m (v : coord) := mkC (lon v mod 360000000) (lat v) in if Z.abs (lon (e2 s) - lon (e1 s)) <=? 180000000 then foot s c else foot (mkS (m (e1 s)) (m (e2 s))) (m c).
Definition close_to (r : res coord) (c : coord) : bool :=
  match r with Ok x => within_f (get_longitude x) (get_longitude c) (dec 1 4) && within_f (get_latitude x) (get_latitude c) (dec 1 4) | _ => false end.
Example line_segment_82 : close_to (project short_foot (mkS (d 0 1) (d 1 0)) (d 1 1) f_0) (dh 5 5) && close_to (project short_foot (mkS (d 179 0) (d (-179) 0)) (dh 1795 10) f_0) (dh 1795 0) = true.
Proof. vm_compute. reflexivity. Qed.

(** ** types/polygon/test_polygon.cpp *)
Definition polygon_is (l m : list coord) : bool := if list_eq_dec coord_dec (verts (poly l)) m then true else false.
Example polygon_11 : polygon_is [d 1 2; d 2 1; d 3 3] [d 1 2; d 2 1; d 3 3] && polygon_is [d 3 3; d 2 1; d 1 2] [d 1 2; d 2 1; d 3 3] && polygon_is [d 0 0; d 1 1] [d 0 0; d 1 1] &&
  polygon_is [d 0 0; dh 5 5; d 1 1] [d 0 0; d 1 1] && polygon_is [d 0 0; d 1 0; d 0 1; d (-1) 0] [d 1 0; d 0 1; d (-1) 0] = true.
Proof. vm_compute. reflexivity. Qed.
Example polygon_49 : let poly1 := poly [d 1 2; d 2 1; d 3 3] in let poly3 := poly [d 1 2; d 2 2; d 1 1] in
  polygon_eqb poly1 poly1 && negb (polygon_eqb poly1 poly3) && (hash_polygon poly1 =? hash_polygon poly1) && negb (hash_polygon poly1 =? hash_polygon poly3) = true.
Proof. vm_compute. reflexivity. Qed.

(** ** types/polyline/test_three_vertex_polyline.cpp; the integers of the first cases are microdegrees *)
Example polyline_11 : let p := mkPL (mkC 1 0) (mkC 2 0) (mkC 3 1) in yes (point_visible p (mkC 3 (-1))) && yes (point_visible p (mkC 3 0)) = true.
Proof. vm_compute. reflexivity. Qed.
Example polyline_18 : let p := mkPL (mkC 1 0) (mkC 2 0) (mkC 3 (-1)) in no (point_visible p (mkC 3 1)) && no (point_visible p (mkC 3 0)) = true.
Proof. vm_compute. reflexivity. Qed.
Example polyline_25 : let p := mkPL (dh 3 (-5)) (d 1 0) (d 0 1) in yes (point_visible p (d 2 (-2))) && yes (point_visible p (d 0 (-1))) = true.
Proof. vm_compute. reflexivity. Qed.
Example polyline_31 : let p := mkPL (d (-1) 0) (d 0 1) (d 1 0) in yes (point_visible p (d 0 0)) && no (point_visible p (d 0 2)) = true.
Proof. vm_compute. reflexivity. Qed.
Example polyline_38 : let p := mkPL (d (-1) (-1)) (d 0 0) (d 1 (-1)) in
  yes (point_visible p (d 0 (-1))) && yes (point_visible p (d (-1) (-1))) && yes (point_visible p (d 1 (-1))) && no (point_visible p (dh (-15) 10)) &&
  no (point_visible p (dh 15 10)) && no (point_visible p (d 0 1)) = true.
Proof. vm_compute. reflexivity. Qed.
Example polyline_49 : let p := mkPL (dh 29 (-30)) (d 3 (-3)) (d 4 (-2)) in
  yes (point_visible p (dh 29 (-30))) && yes (point_visible p (d 4 (-2))) && no (point_visible p (d 0 (-1))) && no (point_visible p (d 1 0)) && no (point_visible p (dh 3 (-5))) = true.
Proof. vm_compute. reflexivity. Qed.
Example polyline_59 : let p := mkPL (deg (dec (-514999) 6) (dec 449903 4)) (deg (dec (-514999) 6) (dec 44809999 6)) (deg (dec (-56505) 5) (dec 4485002 5)) in
  no (point_visible p (deg (dec (-514999) 6) (dec 38201167 6))) && yes (point_visible p (deg (dec (-544) 3) (dec 44892 3))) = true.
Proof. vm_compute. reflexivity. Qed.
Example polyline_80 : let p := mkPL (d (-1) 0) (d 0 0) (d 0 1) in
  yes (point_visible p (d 0 1)) && yes (point_visible p (dh 0 5)) && yes (point_visible p (d 0 (-2))) && no (point_visible p (d 0 2)) && no (point_visible p (d (-1) 1)) = true.
Proof. vm_compute. reflexivity. Qed.
Example polyline_94 : let p := mkPL (d (-1) 0) (d 1 0) (d 0 1) in yes (point_visible p (d (-1) 0)) && yes (point_visible p (d 3 0)) && yes (point_visible p (d 5 0)) = true.
Proof. vm_compute. reflexivity. Qed.
Example polyline_106 : let p := mkPL (d 0 1) (d 0 0) (d (-1) 0) in
  yes (point_visible p (d 0 1)) && yes (point_visible p (dh 0 5)) && no (point_visible p (d 0 (-2))) && no (point_visible p (d 0 2)) && yes (point_visible p (d (-1) 1)) = true.
Proof. vm_compute. reflexivity. Qed.
Example polyline_120 : let p := mkPL (deg (dec (-70410444) 6) (dec (-23651722) 6)) (deg (dec (-70410056) 6) (dec (-23652110999999998) 15)) (deg (dec (-70408389) 6) (dec (-23652082999999998) 15)) in
  no (point_visible p (deg (dec (-70236059) 6) (dec (-23437144) 6))) = true.
Proof. vm_compute. reflexivity. Qed.

(** ** geom/angle_sorter/test_angle_sorter.cpp *)
Definition sorted_as (o : coord) (l m : list coord) : bool := if list_eq_dec coord_dec (sort_keys o l) m then true else false.
Example angle_sorter_11 : sorted_as (d 1 1) [d 1 2; d 4 0; d 2 0; d 3 3; d 2 2; d 0 1; d 1 0; d 1 1] [d 1 1; d 2 2; d 3 3; d 1 2; d 0 1; d 1 0; d 2 0; d 4 0] = true.
Proof. vm_compute. reflexivity. Qed.
Example angle_sorter_33 : sorted_as (d 1 1) [d 1 1; d 2 1; d (-2) 1; d (-3) 1; d 3 1] [d 1 1; d 2 1; d 3 1; d (-2) 1; d (-3) 1] = true.
Proof. vm_compute. reflexivity. Qed.

(** ** datastructures/graph/test_graph.cpp *)
Definition add_each (g : graph) (es : list (coord * coord * bool)) : res graph := foldM (fun g e => add_edge g (fst (fst e)) (snd (fst e)) (snd e)) es g.
Example graph_11 : let c1 := d 1 2 in let c2 := d 2 1 in let c3 := d 1 1 in let c4 := d 1 5 in
  match add_each (make_graph [poly [c1; c2; c3; c4]]) [(c1, c2, true); (c1, c2, true); (c3, c4, true); (c3, c4, false)] with
  | Ok g => yes (has_edge g c1 c2) && yes (has_edge g c2 c1) && no (has_edge g c1 c3) && yes (is_edge_meridian_crossing g c1 c2) && no (is_edge_meridian_crossing g c3 c4) &&
            no (is_edge_meridian_crossing g c1 c3)
  | _ => false
  end = true.
Proof. vm_compute. reflexivity. Qed.
Example graph_34 : let c1 := d 1 2 in let c2 := d 2 1 in let c3 := d 3 1 in
  match (g <- add_edge (make_graph [poly [c1; c2; c3]]) c1 c2 true ;; g <- remove_edge g c1 c2 ;; remove_edge g c1 c3) with
  | Ok g => no (has_edge g c1 c2) && no (has_edge g c2 c1)
  | _ => false
  end = true.
Proof. vm_compute. reflexivity. Qed.
Example graph_49 : let g := make_graph [poly [d 1 2; d 2 1; d 1 1]] in forallb (fun c => existsb (coord_eqb c) (get_vertices g)) [d 1 2; d 2 1; d 1 1] = true.
Proof. vm_compute. reflexivity. Qed.
Example graph_61 : match add_edge (make_graph [poly [d 1 2; d 2 1; d 1 1]]) (d 1 2) (d 2 1) false with
  | Ok g => (match get_neighbors g (d 1 2) with Ok [c] => coord_eqb c (d 2 1) | _ => false end) && (match get_neighbors g (d 2 1) with Ok [c] => coord_eqb c (d 1 2) | _ => false end)
  | _ => false
  end = true.
Proof. vm_compute. reflexivity. Qed.
Example graph_74 : let p := poly [d 1 2; d 2 1; d 1 1] in match get_polygons (make_graph [p]) with [q] => polygon_eqb p q | _ => false end = true.
Proof. vm_compute. reflexivity. Qed.
(** the split of the vertices is given by any permutation of them; this one takes every other vertex *)
Definition p3 : polygon := poly [d 1 0; dh 0 15; d (-1) 0].
Definition p4 : polygon := poly [d 4 0; d 3 1; d 2 0].
Definition mixed (l : list coord) : list coord := match l with [a; b; c; e; f; g] => [g; a; e; b; f; c] | _ => l end.
Definition split_graph (lo hi : nat) : res graph :=
  p <- make_polygons_periodic [p3; p4] ;; generate_with_shuffled_range (fun v => quick_vis p v true) [p3; p4] lo hi (mixed (polygon_vertices [p3; p4])).
Example graph_86 : (match split_graph 0 3, split_graph 3 6 with
  | Ok g1, Ok g2 => match generated_quickly [p3; p4], merge_graphs [p3; p4] [g1; g2] with Ok g, Ok m => yes (graph_eqb hash_sort g m) | _, _ => false end
  | _, _ => false
  end) = true.
Proof. vm_compute. reflexivity. Qed.

(** ** serialization/test_graph_serializer.cpp *)
Definition back_again (r : res graph) : bool :=
  match (g <- r ;; m <- serialize_to_file g None ;; h <- deserialize_from_file 1000 m ;; Ok (g, h)) with
  | Ok (g, h) => yes (graph_eqb hash_sort g h) &&
      forallb (fun v => match get_neighbors g v, get_neighbors h v with Ok l, Ok m => same_members coord_eqb l m | _, _ => false end && has_vertex h v) (get_vertices g)
  | _ => false
  end.
Example serializer_12 : let c1 := d 1 2 in let c2 := d 2 1 in let c3 := d 1 1 in let c4 := deg (dec 39068387 6) (dec 47276612 6) in
  back_again (add_each (make_graph [poly [c1; c2]; poly [c3; c4]]) [(c1, c2, false); (c1, c3, false); (c3, c4, true)]) = true.
Proof. vm_compute. reflexivity. Qed.
Example serializer_43 : back_again (generated_quickly [poly [d 1 0; d 0 1; d (-1) 0]; p4]) = true.
Proof. vm_compute. reflexivity. Qed.
Example serializer_69 : let c1 := d 1 2 in let c2 := d 2 1 in let c3 := d 2 (-1) in let c4 := d 1 (-2) in
  back_again (add_each (make_graph [poly [c1; c2; c3; c4; d (-1) (-2); d (-2) (-1); d (-2) 1; d (-1) 2]]) [(c1, c2, false); (c1, c3, false); (c3, c4, true)]) = true.
Proof. vm_compute. reflexivity. Qed.

(** ** Python: shapefiles/test_shapefile_reader.py:11, with the five points pyshp reads from very_small.shp *)
Example shapefile_reader_11 : let n := num (-1) in let o := num 0 in let i := num 1 in
  match read_shapes [mkSh true [(n, o); (o, i); (i, o); (o, n); (n, o)] [0%nat]] with
  | Ok [l] => (length l =? 4)%nat && forallb (fun x => feqb (p_longitude (fst x)) (fst (snd x)) && feqb (p_latitude (fst x)) (snd (snd x))) (combine l [(n, o); (o, i); (i, o); (o, n)])
  | _ => false
  end = true.
Proof. vm_compute. reflexivity. Qed.
(** datastructures/test_polygon.py:19 *)
Example py_polygon_19 : forall a b, py_polygon [] = Throw PyValueError /\ py_polygon [a] = Throw PyValueError /\ py_polygon [a; b] = Throw PyValueError.
Proof. intros a b. repeat split. Qed.
