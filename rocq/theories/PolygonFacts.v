(** Facts about [remove_collinear_vertices]: pure form, selection, area, fixed points. *)
From Coq Require Import ZArith Bool List Lia ZifyBool.
From Verif Require Import Base F64 Coordinate Segment Polygon CoordinateFacts SpecGeom SegmentFacts.
Import ListNotations.
Local Open Scope Z_scope.

(** ** Directions *)
Definition codir (a b : coord) : Prop := det a b = 0 /\ 0 < dot a b.
Definition vadd (a b : coord) : coord := mkC (lon a + lon b) (lat a + lat b).

Lemma codir_sym a b : codir a b -> codir b a.
Proof. unfold codir, det, dot. intros [H1 H2]. lia. Qed.

Lemma sq_nonneg x : 0 <= x * x. Proof. nia. Qed.
Lemma codir_nz a b : codir a b -> 0 < dot a a.
Proof.
  unfold codir, det, dot. intros [H1 H2].
  pose proof (sq_nonneg (lon a)). pose proof (sq_nonneg (lat a)).
  assert (lon a <> 0 \/ lat a <> 0) as [N|N] by nia; nia.
Qed.
Lemma codir_refl a : a <> mkC 0 0 -> codir a a.
Proof.
  intros N. unfold codir, det, dot. split; [lia|]. destruct a as [x y]. simpl.
  assert (x <> 0 \/ y <> 0) as [H|H]; [|nia|nia].
  destruct (Z.eq_dec x 0); [right|left; auto]. intros ->. subst. apply N. reflexivity.
Qed.

(** parallel vectors: dot a b * dot b c = dot b b * dot a c when det a b = 0 or det b c = 0 *)
Lemma dot_trans a b c : det a b = 0 -> dot a b * dot b c = dot b b * dot a c.
Proof.
  unfold det, dot. intros H.
  assert (E : (lon a * lon b + lat a * lat b) * (lon b * lon c + lat b * lat c) -
          (lon b * lon b + lat b * lat b) * (lon a * lon c + lat a * lat c) =
          (lon a * lat b - lon b * lat a) * (lon b * lat c - lat b * lon c)) by ring.
  rewrite H in E. lia.
Qed.
Lemma det_trans a b c : det a b = 0 -> det b c = 0 -> 0 < dot b b -> det a c = 0.
Proof.
  unfold det, dot. intros H1 H2 H3.
  assert (E : (lon b * lon b + lat b * lat b) * (lon a * lat c - lon c * lat a) =
     (lon a * lat b - lon b * lat a) * (lat b * lat c + lon b * lon c) +
     (lon b * lat c - lon c * lat b) * (lon a * lon b + lat a * lat b)) by ring.
  rewrite H1, H2 in E. nia.
Qed.
Lemma codir_trans a b c : codir a b -> codir b c -> codir a c.
Proof.
  intros A B. pose proof (codir_nz b c B) as N. destruct A as [A1 A2], B as [B1 B2].
  split; [eapply det_trans; eauto|]. pose proof (dot_trans a b c A1). nia.
Qed.
Lemma codir_add a b c : codir a c -> codir b c -> codir (vadd a b) c.
Proof. unfold codir, det, dot, vadd. simpl. lia. Qed.

(** ** The test, as a pure function of the three vertices *)
Definition keepb (p c n : coord) : bool :=
  negb (det (vsub c p) (vsub n c) =? 0) || (dot (vsub c p) (vsub n c) <? 0).

Lemma vsub_i32 a b : pgeo a -> pgeo b -> coord_i32 (vsub a b).
Proof. unfold pgeo, coord_i32, vsub, INT32_MIN, INT32_MAX. simpl. lia. Qed.

Lemma vnth_vat vs i : vnth vs i = vat vs i. Proof. reflexivity. Qed.

Lemma pgeo_vat vs i : Forall pgeo vs -> pgeo (vat vs i).
Proof.
  intros F. unfold vat. destruct (Nat.lt_ge_cases i (length vs)) as [L|L].
  - rewrite Forall_forall in F. apply F, nth_In, L.
  - rewrite nth_overflow by exact L. unfold pgeo. simpl. lia.
Qed.

Lemma keep_vertex_ok vs i : Forall pgeo vs ->
  keep_vertex vs i = Ok (keepb (ring_prev vs i) (vat vs i) (ring_next vs i)).
Proof.
  intros F. unfold keep_vertex. cbv zeta.
  change (vnth vs ((i + length vs - 1) mod length vs)%nat) with (ring_prev vs i).
  change (vnth vs ((i + 1) mod length vs)%nat) with (ring_next vs i). rewrite vnth_vat.
  assert (P1 : pgeo (ring_prev vs i)) by (apply pgeo_vat; exact F).
  assert (P2 : pgeo (vat vs i)) by (apply pgeo_vat; exact F).
  assert (P3 : pgeo (ring_next vs i)) by (apply pgeo_vat; exact F).
  rewrite !coord_sub_pgeo by assumption. simpl.
  pose proof (vsub_i32 _ _ P2 P1) as A. pose proof (vsub_i32 _ _ P3 P2) as B.
  rewrite parallel_ok by assumption. simpl. unfold keepb.
  set (ab := vsub (vat vs i) (ring_prev vs i)) in *. set (bc := vsub (ring_next vs i) (vat vs i)) in *.
  destruct (det ab bc =? 0) eqn:D; simpl; [|reflexivity].
  destruct (scalar_multiple_factor_spec ab bc A B) as (f & E & S1 & S2 & S3).
  rewrite E. simpl. apply Z.eqb_eq in D. apply S1 in D. destruct f as [v|]; [|congruence]. simpl.
  f_equal. destruct (coord_dec ab (mkC 0 0)) as [Z0|NZ].
  - rewrite (S3 v eq_refl) by (unfold nonzero; tauto). rewrite Z0. reflexivity.
  - destruct (S2 v eq_refl NZ) as [_ S]. apply eq_true_iff_eq. rewrite S. symmetry. apply Z.ltb_lt.
Qed.

(** ** The loop, as a structural function on the unrolled ring *)
Fixpoint flt (p : coord) (l : list coord) : list coord :=
  match l with
  | [] => []
  | c :: l' =>
      match l' with
      | [] => []
      | n :: _ => if keepb p c n then c :: flt c l' else flt c l'
      end
  end.
Definition cyc (vs : list coord) : list coord :=
  match vs with
  | [] => []
  | h :: _ => flt (last vs h) (vs ++ [h])
  end.

Lemma flt_cons p c n l : flt p (c :: n :: l) = if keepb p c n then c :: flt c (n :: l) else flt c (n :: l).
Proof. reflexivity. Qed.

Lemma flt_index (g : nat -> coord) m : forall i,
  flt (g i) (map g (seq (S i) (S m))) =
  map g (filter (fun j => keepb (g (j - 1)%nat) (g j) (g (j + 1)%nat)) (seq (S i) m)).
Proof.
  induction m as [|m IH]; intros i; [reflexivity|].
  change (map g (seq (S i) (S (S m)))) with (g (S i) :: g (S (S i)) :: map g (seq (S (S (S i))) m)).
  rewrite flt_cons.
  change (g (S (S i)) :: map g (seq (S (S (S i))) m)) with (map g (seq (S (S i)) (S m))).
  rewrite IH. change (seq (S i) (S m)) with (S i :: seq (S (S i)) m). cbn [filter].
  replace (S i - 1)%nat with i by lia. replace (S i + 1)%nat with (S (S i)) by lia.
  destruct (keepb (g i) (g (S i)) (g (S (S i)))); reflexivity.
Qed.

Definition ring_at (vs : list coord) (j : nat) : coord := vat vs ((j + length vs - 1) mod length vs)%nat.

Lemma nth_last {A} (l : list A) d : nth (length l - 1) l d = last l d.
Proof.
  induction l as [|x l IH]; [reflexivity|]. destruct l as [|y l]; [reflexivity|].
  change (last (x :: y :: l) d) with (last (y :: l) d). rewrite <- IH.
  replace (length (x :: y :: l) - 1)%nat with (S (length (y :: l) - 1)) by (simpl; lia). reflexivity.
Qed.
Lemma last_default {A} (l : list A) d d' : l <> [] -> last l d = last l d'.
Proof.
  induction l as [|x l IH]; [congruence|]. intros _. destruct l as [|y l]; [reflexivity|].
  apply IH. congruence.
Qed.
Lemma ring_at_0 h t : ring_at (h :: t) 0 = last (h :: t) h.
Proof.
  unfold ring_at, vat. set (n := length (h :: t)). assert (0 < n)%nat by (unfold n; simpl; lia).
  rewrite Nat.mod_small by lia. replace (0 + n - 1)%nat with (n - 1)%nat by lia. unfold n.
  rewrite nth_last. apply last_default. congruence.
Qed.
Lemma ring_at_S vs j : (j < length vs)%nat -> ring_at vs (S j) = vat vs j.
Proof.
  intros H. unfold ring_at. replace (S j + length vs - 1)%nat with (j + 1 * length vs)%nat by lia.
  rewrite Nat.mod_add by lia. rewrite Nat.mod_small by exact H. reflexivity.
Qed.
Lemma ring_at_end vs : vs <> [] -> ring_at vs (S (length vs)) = vat vs 0.
Proof.
  intros H. unfold ring_at. assert (length vs <> 0)%nat by (destruct vs; simpl; congruence).
  replace (S (length vs) + length vs - 1)%nat with (0 + 2 * length vs)%nat by lia.
  rewrite Nat.mod_add by lia. rewrite Nat.mod_small by lia. reflexivity.
Qed.

Lemma map_vat vs : map (vat vs) (seq 0 (length vs)) = vs.
Proof.
  apply nth_ext with (d := vat vs (length vs)) (d' := mkC 0 0); [rewrite map_length, seq_length; reflexivity|].
  intros i. rewrite map_length, seq_length. intros H.
  rewrite (map_nth (vat vs)). rewrite seq_nth by exact H. reflexivity.
Qed.

Lemma unrolled h t : map (ring_at (h :: t)) (seq 1 (S (length (h :: t)))) = (h :: t) ++ [h].
Proof.
  set (vs := h :: t). replace (S (length vs)) with (length vs + 1)%nat by lia. rewrite seq_app, map_app. f_equal.
  - rewrite <- seq_shift, map_map. transitivity (map (vat vs) (seq 0 (length vs))); [|apply map_vat].
    apply map_ext_in. intros j J. apply in_seq in J. apply ring_at_S. lia.
  - simpl. f_equal. apply (ring_at_end vs). unfold vs; congruence.
Qed.

Definition keep_at (vs : list coord) (i : nat) : bool := keepb (ring_prev vs i) (vat vs i) (ring_next vs i).

Lemma cyc_index vs : cyc vs = map (vat vs) (filter (keep_at vs) (seq 0 (length vs))).
Proof.
  destruct vs as [|h t]; [reflexivity|].
  unfold cyc. rewrite <- unrolled, <- (ring_at_0 h t). set (vs := h :: t).
  rewrite (flt_index (ring_at vs) (length vs) 0).
  rewrite <- (seq_shift (length vs) 0).
  assert (G : forall l, (forall j, In j l -> (j < length vs)%nat) ->
    map (ring_at vs) (filter (fun j => keepb (ring_at vs (j - 1)) (ring_at vs j) (ring_at vs (j + 1))) (map S l)) =
    map (vat vs) (filter (keep_at vs) l)).
  { induction l as [|j l IH]; intros H; [reflexivity|]. cbn [map filter].
    assert (Hj : (j < length vs)%nat) by (apply H; left; reflexivity).
    replace (S j - 1)%nat with j by lia.
    assert (E : keepb (ring_at vs j) (ring_at vs (S j)) (ring_at vs (S j + 1)) = keep_at vs j).
    { unfold keep_at. rewrite ring_at_S by exact Hj. f_equal.
      unfold ring_at, ring_next. replace (S j + 1 + length vs - 1)%nat with ((j + 1) + 1 * length vs)%nat by lia.
      rewrite Nat.mod_add by lia. reflexivity. }
    rewrite E. destruct (keep_at vs j); cbn [map]; rewrite IH; auto.
    - rewrite ring_at_S by exact Hj. reflexivity.
    - intros k K. apply H. right. exact K.
    - intros k K. apply H. right. exact K. }
  apply G. intros j J. apply in_seq in J. lia.
Qed.

Lemma remove_collinear_ok vs : Forall pgeo vs -> remove_collinear_vertices vs = Ok (cyc vs).
Proof.
  intros F. unfold remove_collinear_vertices. rewrite cyc_index.
  assert (G : forall l acc,
    foldM (fun acc i => k <- keep_vertex vs i;; Ok (if (k : bool) then acc ++ [vnth vs i] else acc)) l acc =
    Ok (acc ++ map (vat vs) (filter (keep_at vs) l))).
  { induction l as [|i l IH]; intros acc; simpl; [rewrite app_nil_r; reflexivity|].
    rewrite keep_vertex_ok by exact F. simpl. fold (keep_at vs i). rewrite IH.
    destruct (keep_at vs i); simpl; [rewrite <- app_assoc; reflexivity|reflexivity]. }
  apply (G (seq 0 (length vs)) []).
Qed.

(** ** Linear invariant *)
Fixpoint adj_ne (l : list coord) : Prop :=
  match l with
  | a :: ((b :: _) as l') => a <> b /\ adj_ne l'
  | _ => True
  end.
Fixpoint triples (P : coord -> coord -> coord -> Prop) (l : list coord) : Prop :=
  match l with
  | a :: ((b :: (c :: _)) as l') => P a b c /\ triples P l'
  | _ => True
  end.

Lemma vsub_nz a b : a <> b -> vsub b a <> mkC 0 0.
Proof.
  intros N E. apply N. unfold vsub in E. inversion E as [[H1 H2]]. destruct a, b; simpl in *.
  f_equal; lia.
Qed.
Lemma keepb_codir p c n : p <> c -> c <> n -> (keepb p c n = true <-> ~ codir (vsub c p) (vsub n c)).
Proof.
  intros N1 N2. unfold keepb, codir. rewrite orb_true_iff, negb_true_iff, Z.eqb_neq, Z.ltb_lt.
  set (a := vsub c p). set (b := vsub n c).
  split; [intros [H|H]; lia|]. intros H.
  destruct (Z.eq_dec (det a b) 0) as [E|E]; [right|left; exact E].
  destruct (Z.eq_dec (dot a b) 0) as [D|D]; [exfalso|lia].
  (* det = dot = 0 with both non-zero is impossible *)
  assert (NA : 0 < dot a a) by (apply (codir_refl a); apply vsub_nz; exact N1).
  assert (NB : 0 < dot b b) by (apply (codir_refl b); apply vsub_nz; exact N2).
  unfold det, dot in *.
  assert (I : (lon a * lon a + lat a * lat a) * (lon b * lon b + lat b * lat b) =
     (lon a * lat b - lon b * lat a) * (lon a * lat b - lon b * lat a) +
     (lon a * lon b + lat a * lat b) * (lon a * lon b + lat a * lat b)) by ring.
  rewrite E, D in I. nia.
Qed.

Lemma keepb_false_codir p c n : p <> c -> c <> n -> keepb p c n = false -> codir (vsub c p) (vsub n c).
Proof.
  intros N1 N2 K.
  assert (D : codir (vsub c p) (vsub n c) \/ ~ codir (vsub c p) (vsub n c)).
  { unfold codir. destruct (Z.eq_dec (det (vsub c p) (vsub n c)) 0); destruct (Z_lt_le_dec 0 (dot (vsub c p) (vsub n c))); intuition lia. }
  destruct D as [D|D]; [exact D|]. apply (keepb_codir p c n N1 N2) in D. congruence.
Qed.

(** [a] is the last vertex kept, [p] the vertex just before the list *)
Definition anchored (a p c : coord) : Prop := a = p \/ codir (vsub p a) (vsub c p).

Lemma anchored_dir a p c : p <> c -> anchored a p c -> codir (vsub c a) (vsub c p).
Proof.
  intros N [->|H]; [apply codir_refl, vsub_nz; auto|].
  replace (vsub c a) with (vadd (vsub p a) (vsub c p)).
  - apply codir_add; [exact H|apply codir_refl, vsub_nz; auto].
  - unfold vadd, vsub. simpl. f_equal; ring.
Qed.

Definition kept3 (x y z : coord) : Prop := x <> y /\ y <> z /\ keepb x y z = true.

(** consecutive differences of the filtered path: first direction and kept triples *)
Lemma flt_path l : forall a p c, adj_ne (p :: c :: l) -> anchored a p c ->
  let r := flt p (c :: l) ++ [last (c :: l) c] in
  triples kept3 (a :: r) /\
  codir (vsub (hd c r) a) (vsub c p) /\
  path_area (a :: r) = (lon a * lat p - lat a * lon p) + path_area (p :: c :: l).
Proof.
  induction l as [|n l IH]; intros a p c N A.
  - cbv zeta. simpl. split; [exact I|]. split; [apply anchored_dir; [apply N|exact A]|].
    destruct A as [->|A]; [ring|]. destruct A as [A _]. unfold det, vsub in A. simpl in A. lia.
  - destruct N as [N1 N]. assert (N2 : c <> n) by apply N.
    assert (AR : (lon a * lat p - lat a * lon p) + (lon p * lat c - lat p * lon c) = lon a * lat c - lat a * lon c).
    { destruct A as [->|[A _]]; [ring|]. unfold det, vsub in A. simpl in A. lia. }
    assert (DC : codir (vsub c a) (vsub c p)) by (apply anchored_dir; auto).
    cbv zeta in *. rewrite flt_cons.
    assert (LL : forall d d', last (n :: l) d = last (n :: l) d').
    { intros. apply last_default. congruence. }
    replace (last (c :: n :: l) c) with (last (n :: l) n) by (rewrite (LL n c); reflexivity).
    destruct (keepb p c n) eqn:K.
    + destruct (IH c c n N (or_introl eq_refl)) as (T & D & AA). cbv zeta in *.
      set (r := flt c (n :: l) ++ [last (n :: l) n]) in *.
      cbn [app]. fold r.
      assert (Rne : exists x r', r = x :: r') by (unfold r; destruct (flt c (n :: l)); simpl; eauto).
      destruct Rne as (x & r' & Er). rewrite Er in *. cbn [hd] in *.
      split; [|split].
      * split; [|exact T]. split; [intros E; subst; destruct DC as [_ DC]; unfold dot, vsub in DC; simpl in DC; lia|].
        split.
        { intros E. subst x. destruct D as [_ D]. unfold dot, vsub in D; simpl in D; lia. }
        apply keepb_codir.
        -- intros E; subst; destruct DC as [_ DC]; unfold dot, vsub in DC; simpl in DC; lia.
        -- intros E. subst x. destruct D as [_ D]. unfold dot, vsub in D; simpl in D; lia.
        -- intros C. apply (proj1 (keepb_codir p c n N1 N2) K).
           eapply codir_trans; [apply codir_sym; exact DC|]. eapply codir_trans; [exact C|exact D].
      * exact DC.
      * change (path_area (a :: c :: x :: r')) with ((lon a * lat c - lat a * lon c) + path_area (c :: x :: r')).
        rewrite AA. change (path_area (p :: c :: n :: l)) with ((lon p * lat c - lat p * lon c) + path_area (c :: n :: l)).
        lia.
    + pose proof (keepb_false_codir p c n N1 N2 K) as CD.
      assert (A' : anchored a c n) by (right; eapply codir_trans; eauto).
      destruct (IH a c n N A') as (T & D & AA). cbv zeta in *.
      split; [exact T|]. split.
      * assert (hd c (flt c (n :: l) ++ [last (n :: l) n]) = hd n (flt c (n :: l) ++ [last (n :: l) n])) as ->
          by (destruct (flt c (n :: l)); reflexivity).
        eapply codir_trans; [exact D|]. apply codir_sym. exact CD.
      * rewrite AA. change (path_area (p :: c :: n :: l)) with ((lon p * lat c - lat p * lon c) + path_area (c :: n :: l)).
        lia.
Qed.

(** ** Rotation *)
Lemma last_app_cons {A} (l : list A) x l' d : last (l ++ x :: l') d = last (x :: l') d.
Proof.
  induction l as [|y l IH]; [reflexivity|]. rewrite <- IH. cbn [app].
  destruct (l ++ x :: l') eqn:E; [destruct l; discriminate|reflexivity].
Qed.
Lemma last_cons_default {A} (x : A) l d : last (x :: l) d = last l x.
Proof.
  destruct l as [|y l]; [reflexivity|]. change (last (x :: y :: l) d) with (last (y :: l) d).
  apply last_default. congruence.
Qed.

Lemma flt_app A : forall p k B, flt p (A ++ k :: B) = flt p (A ++ [k]) ++ flt (last A p) (k :: B).
Proof.
  induction A as [|c A IH]; intros p k B; [reflexivity|].
  rewrite last_cons_default. cbn [app].
  assert (E : exists n l l', A ++ k :: B = n :: l /\ A ++ [k] = n :: l').
  { destruct A as [|x A]; simpl; eauto. }
  destruct E as (n & l & l' & E1 & E2).
  rewrite E1, E2, !flt_cons, <- E1, <- E2, IH.
  destruct (keepb p c n); reflexivity.
Qed.

Lemma flt_length l : forall p, (length (flt p l) <= length l - 1)%nat.
Proof.
  induction l as [|c l IH]; intros p; [simpl; lia|]. destruct l as [|n l]; [simpl; lia|].
  rewrite flt_cons. specialize (IH c). simpl length in *. destruct (keepb p c n); simpl length; lia.
Qed.

Lemma cyc_length l : (length (cyc l) <= length l)%nat.
Proof.
  destruct l as [|h t]; [simpl; lia|]. unfold cyc.
  eapply Nat.le_trans; [apply flt_length|]. rewrite app_length. simpl. lia.
Qed.

Lemma cyc_head a A B : cyc ((a :: A) ++ B) = flt (last ((a :: A) ++ B) a) (((a :: A) ++ B) ++ [a]).
Proof. reflexivity. Qed.

Lemma cyc_rotate A B : exists C D, cyc (A ++ B) = C ++ D /\ cyc (B ++ A) = D ++ C /\
  (length C <= length A)%nat /\ (length D <= length B)%nat.
Proof.
  destruct A as [|a A].
  { exists [], (cyc B). rewrite app_nil_r. split; [reflexivity|]. split; [rewrite app_nil_r; reflexivity|].
    split; [simpl; lia|apply cyc_length]. }
  destruct B as [|b B].
  { exists (cyc (a :: A)), []. rewrite !app_nil_r. split; [reflexivity|]. split; [reflexivity|].
    split; [apply cyc_length|simpl; lia]. }
  exists (flt (last (b :: B) b) ((a :: A) ++ [b])), (flt (last (a :: A) a) ((b :: B) ++ [a])).
  split; [|split; [|split]].
  - rewrite cyc_head, last_app_cons, (last_default (b :: B) a b) by congruence.
    rewrite <- app_assoc. change ((b :: B) ++ [a]) with (b :: (B ++ [a])). rewrite (flt_app (a :: A)). f_equal.
    rewrite (last_default (a :: A) _ a) by congruence. reflexivity.
  - rewrite cyc_head, last_app_cons, (last_default (a :: A) b a) by congruence.
    rewrite <- app_assoc. change ((a :: A) ++ [b]) with (a :: (A ++ [b])). rewrite (flt_app (b :: B)). f_equal.
    rewrite (last_default (b :: B) _ b) by congruence. reflexivity.
  - eapply Nat.le_trans; [apply flt_length|]. rewrite app_length. simpl. lia.
  - eapply Nat.le_trans; [apply flt_length|]. rewrite app_length. simpl. lia.
Qed.

Lemma app_inj_length {A} (a b c d : list A) : a ++ b = c ++ d -> length a = length c -> a = c /\ b = d.
Proof.
  revert c. induction a as [|x a IH]; intros [|y c] E L; simpl in *; try discriminate; auto.
  inversion E; subst. destruct (IH c H1 ltac:(lia)). subst. auto.
Qed.

Lemma cyc_fixed_rotate A B : cyc (A ++ B) = A ++ B -> cyc (B ++ A) = B ++ A.
Proof.
  intros E. destruct (cyc_rotate A B) as (C & D & E1 & E2 & L1 & L2).
  rewrite E in E1. pose proof (f_equal (@length _) E1) as L. rewrite !app_length in L.
  destruct (app_inj_length A B C D E1 ltac:(lia)) as [-> ->]. exact E2.
Qed.

Lemma path_area_app A : forall k B, path_area (A ++ k :: B) = path_area (A ++ [k]) + path_area (k :: B).
Proof.
  induction A as [|a A IH]; intros k B; [simpl; lia|]. cbn [app].
  assert (E : exists n l l', A ++ k :: B = n :: l /\ A ++ [k] = n :: l') by (destruct A as [|x A]; simpl; eauto).
  destruct E as (n & l & l' & E1 & E2). specialize (IH k B). rewrite E1, E2 in *.
  change (path_area (a :: n :: l)) with ((lon a * lat n - lat a * lon n) + path_area (n :: l)).
  change (path_area (a :: n :: l')) with ((lon a * lat n - lat a * lon n) + path_area (n :: l')). lia.
Qed.

Lemma ring_area_head a A B : ring_area ((a :: A) ++ B) = path_area (((a :: A) ++ B) ++ [a]).
Proof. reflexivity. Qed.

Lemma ring_area_rotate A B : ring_area (A ++ B) = ring_area (B ++ A).
Proof.
  destruct A as [|a A]; [rewrite app_nil_r; reflexivity|].
  destruct B as [|b B]; [rewrite app_nil_r; reflexivity|].
  rewrite !ring_area_head, <- !app_assoc.
  change ((b :: B) ++ [a]) with (b :: (B ++ [a])). change ((a :: A) ++ [b]) with (a :: (A ++ [b])).
  rewrite (path_area_app (a :: A)), (path_area_app (b :: B)). cbn [app]. lia.
Qed.

(** ** Rings without consecutive duplicates *)
Definition ring_ne (vs : list coord) : Prop :=
  match vs with [] => True | h :: _ => adj_ne (vs ++ [h]) end.

Lemma adj_ne_app A k B : adj_ne (A ++ k :: B) <-> adj_ne (A ++ [k]) /\ adj_ne (k :: B).
Proof.
  induction A as [|a A IH]; [simpl; tauto|]. cbn [app].
  assert (E : exists n l l', A ++ k :: B = n :: l /\ A ++ [k] = n :: l') by (destruct A as [|x A]; simpl; eauto).
  destruct E as (n & l & l' & E1 & E2). rewrite E1, E2 in *.
  change (adj_ne (a :: n :: l)) with (a <> n /\ adj_ne (n :: l)).
  change (adj_ne (a :: n :: l')) with (a <> n /\ adj_ne (n :: l')). tauto.
Qed.

Lemma ring_ne_rotate A B : ring_ne (A ++ B) -> ring_ne (B ++ A).
Proof.
  destruct A as [|a A]; [rewrite app_nil_r; auto|].
  destruct B as [|b B]; [rewrite app_nil_r; auto|].
  change (adj_ne (((a :: A) ++ b :: B) ++ [a]) -> adj_ne (((b :: B) ++ a :: A) ++ [b])).
  rewrite <- !app_assoc.
  change ((b :: B) ++ [a]) with (b :: (B ++ [a])). change ((a :: A) ++ [b]) with (a :: (A ++ [b])).
  rewrite (adj_ne_app (a :: A)), (adj_ne_app (b :: B)). cbn [app]. tauto.
Qed.

Lemma adj_ne_index (g : nat -> coord) m : forall i, (forall j, (i <= j < i + m)%nat -> g j <> g (S j)) ->
  adj_ne (map g (seq i (S m))).
Proof.
  induction m as [|m IH]; intros i H; [exact I|].
  change (map g (seq i (S (S m)))) with (g i :: g (S i) :: map g (seq (S (S i)) m)).
  change (g i <> g (S i) /\ adj_ne (map g (seq (S i) (S m)))). split; [apply H; lia|].
  apply IH. intros j J. apply H. lia.
Qed.

Lemma no_repeats_ring vs : no_repeats vs -> ring_ne vs.
Proof.
  intros N. destruct vs as [|h t]; [exact I|]. unfold ring_ne. rewrite <- unrolled.
  set (vs := h :: t) in *. apply adj_ne_index. intros j J.
  destruct j as [|j]; [lia|]. rewrite ring_at_S by lia.
  replace (ring_at vs (S (S j))) with (ring_next vs j).
  - apply N. lia.
  - unfold ring_next, ring_at. replace (S (S j) + length vs - 1)%nat with ((j + 1) + 1 * length vs)%nat by lia.
    rewrite Nat.mod_add by (unfold vs; simpl; lia). reflexivity.
Qed.

(** ** Main facts about the ring filter *)
Lemma codir_zero a b : ~ codir (vsub a a) b.
Proof. intros [_ H]. unfold dot, vsub in H. simpl in H. lia. Qed.

Lemma cyc_nonempty h t : ring_ne (h :: t) -> cyc (h :: t) <> [].
Proof.
  intros N E. unfold cyc in E. cbn [app] in E. unfold ring_ne in N. cbn [app] in N.
  destruct (t ++ [h]) as [|n l] eqn:T; [destruct t; discriminate|].
  rewrite flt_cons in E. destruct (keepb _ h n); [discriminate|].
  destruct (flt_path l h h n N (or_introl eq_refl)) as (_ & D & _). cbv zeta in D.
  rewrite E in D. cbn [app hd] in D. rewrite <- T in D at 1.
  assert (L : last (n :: l) n = h). { rewrite <- T, last_app_cons. reflexivity. }
  rewrite T in D. rewrite L in D. exact (codir_zero h _ D).
Qed.

Lemma flt_witness l : forall p, flt p l <> [] ->
  exists A k n B, l = A ++ k :: n :: B /\ keepb (last A p) k n = true.
Proof.
  induction l as [|c l IH]; intros p H; [simpl in H; congruence|].
  destruct l as [|n l]; [simpl in H; congruence|]. rewrite flt_cons in H.
  destruct (keepb p c n) eqn:K; [exists [], c, n, l; auto|].
  destruct (IH c H) as (A & k & n' & B & E & K'). exists (c :: A), k, n', B.
  rewrite last_cons_default. split; [rewrite E; reflexivity|exact K'].
Qed.

Lemma kept_rotation h t : ring_ne (h :: t) ->
  exists A k B, h :: t = A ++ k :: B /\ B ++ A <> [] /\
    keepb (last (B ++ A) k) k (hd k (B ++ A)) = true.
Proof.
  intros N. pose proof (cyc_nonempty h t N) as H. unfold cyc in H.
  destruct (flt_witness _ _ H) as (A & k & n & B & E & K).
  assert (EB : exists B', n :: B = B' ++ [h] /\ h :: t = A ++ k :: B').
  { assert (n :: B <> []) as NB by congruence. destruct (exists_last NB) as (B' & z & EB). rewrite EB in E.
    replace (A ++ k :: B' ++ [z]) with ((A ++ k :: B') ++ [z]) in E by (rewrite <- app_assoc; reflexivity).
    apply app_inj_tail in E. destruct E as [E1 E2]. subst z. exists B'. auto. }
  destruct EB as (B' & E1 & E2). exists A, k, B'. split; [exact E2|].
  assert (NE : B' ++ A <> []).
  { intros Z. apply app_eq_nil in Z. destruct Z as [-> ->]. simpl in E2. inversion E2; subst. simpl in N.
    destruct N as [N _]. congruence. }
  split; [exact NE|].
  assert (H1 : last A (last (h :: t) h) = last (B' ++ A) k).
  { destruct A as [|a A].
    - rewrite app_nil_r. transitivity (last (h :: t) h); [reflexivity|]. rewrite E2. apply last_cons_default.
    - rewrite last_app_cons. apply last_default. congruence. }
  assert (H2 : n = hd k (B' ++ A)).
  { destruct B' as [|b B'].
    - simpl in E1. inversion E1; subst. destruct A as [|a A]; [simpl in NE; congruence|].
      simpl in E2. inversion E2; subst. reflexivity.
    - simpl in E1. inversion E1. reflexivity. }
  rewrite H1 in K. rewrite <- H2. exact K.
Qed.

Lemma triples_app P A k l B : triples P (A ++ k :: l :: B) -> triples P (A ++ [k; l]) /\ triples P (k :: l :: B).
Proof.
  induction A as [|a A IH]; [simpl; tauto|]. destruct A as [|b A].
  - cbn [app] in *. intros H. destruct H as [H1 H2]. split; [split; [exact H1|exact I]|exact H2].
  - cbn [app] in *. destruct (A ++ k :: l :: B) as [|x y] eqn:E; [destruct A; discriminate|].
    intros [H1 H2]. destruct (IH H2) as [I1 I2]. split; [|exact I2].
    destruct (A ++ [k; l]) as [|x' y'] eqn:E'; [destruct A; discriminate|].
    split; [|exact I1].
    assert (x = x') as <- by (destruct A; simpl in *; inversion E; inversion E'; congruence). exact H1.
Qed.

Lemma triples_flt R : forall p s, triples kept3 (p :: R ++ [s]) -> flt p (R ++ [s]) = R.
Proof.
  induction R as [|c R IH]; intros p s H; [reflexivity|]. cbn [app] in *.
  destruct (R ++ [s]) as [|n l] eqn:E; [destruct R; discriminate|].
  destruct H as [(_ & _ & K) H]. rewrite flt_cons, K. f_equal. rewrite <- E. apply IH. rewrite E. exact H.
Qed.

(** ring filter applied to a ring whose first vertex is kept *)
Lemma cyc_anchored k W : W <> [] -> ring_ne (k :: W) -> keepb (last W k) k (hd k W) = true ->
  let R := flt k (W ++ [k]) in
  cyc (k :: W) = k :: R /\ cyc (k :: R) = k :: R /\ ring_area (k :: R) = ring_area (k :: W) /\ R <> [].
Proof.
  intros NW N K R. destruct W as [|s W]; [congruence|]. cbn [hd] in K. unfold ring_ne in N. cbn [app] in N.
  assert (C1 : cyc (k :: s :: W) = k :: R).
  { unfold cyc. cbn [app]. rewrite flt_cons. rewrite last_cons_default.
    replace (last (s :: W) k) with (last (s :: W) k) by reflexivity. rewrite K. reflexivity. }
  assert (N' : adj_ne (k :: s :: W ++ [k; s])).
  { change (k :: s :: W ++ [k; s]) with ((k :: s :: W) ++ k :: [s]). apply adj_ne_app. cbn [app].
    split; [exact N|]. split; [apply N|exact I]. }
  destruct (flt_path (W ++ [k; s]) k k s N' (or_introl eq_refl)) as (T & D & A). cbv zeta in *.
  assert (E1 : flt k (s :: W ++ [k; s]) = R ++ [k]).
  { change (s :: W ++ [k; s]) with ((s :: W) ++ k :: [s]). rewrite flt_app. unfold R. f_equal.
    rewrite flt_cons, K. reflexivity. }
  assert (E2 : last (s :: W ++ [k; s]) s = s).
  { change (s :: W ++ [k; s]) with ((s :: W) ++ k :: [s]). rewrite last_app_cons. reflexivity. }
  rewrite E1, E2 in *.
  assert (NR : R <> []).
  { intros E. rewrite E in D. cbn [app hd] in D. exact (codir_zero k _ D). }
  destruct R as [|s' R'] eqn:ER; [congruence|]. cbn [app hd] in D.
  assert (T' : triples kept3 (k :: (s' :: R') ++ [k; s'])).
  { rewrite <- app_assoc in T. cbn [app] in T.
    change (k :: s' :: R' ++ [k; s]) with ((k :: s' :: R') ++ k :: [s]) in T.
    assert (NE : k :: s' :: R' <> []) by congruence. destruct (exists_last NE) as (Q & z & EQ).
    assert (G : (k :: s' :: R') ++ [k; s] = Q ++ z :: k :: [s]) by (rewrite EQ, <- app_assoc; reflexivity).
    assert (G' : k :: (s' :: R') ++ [k; s'] = Q ++ z :: k :: [s']).
    { change (k :: (s' :: R') ++ [k; s']) with ((k :: s' :: R') ++ [k; s']). rewrite EQ, <- app_assoc. reflexivity. }
    cbn [app] in G. change ((k :: s' :: R') ++ [k; s]) with (k :: s' :: R' ++ [k; s]) in T.
    rewrite G in T. rewrite G'. apply triples_app in T. destruct T as [T1 [(H1 & H2 & H3) _]].
    assert (H4 : kept3 z k s').
    { assert (k <> s') by (intros <-; exact (codir_zero k _ D)).
      split; [exact H1|]. split; [assumption|]. apply keepb_codir; auto.
      intros C. apply (proj1 (keepb_codir z k s H1 H2) H3). eapply codir_trans; eauto. }
    clear - T1 H4. induction Q as [|a Q IH]; [split; [exact H4|exact I]|].
    destruct Q as [|b Q]; cbn [app] in *.
    - destruct T1 as [T1 _]. split; [exact T1|]. split; [exact H4|exact I].
    - destruct (Q ++ [z; k]) as [|x y] eqn:E; [destruct Q; discriminate|].
      destruct T1 as [T1 T2]. specialize (IH T2).
      destruct (Q ++ [z; k; s']) as [|x' y'] eqn:E'; [destruct Q; discriminate|].
      split; [|exact IH].
      assert (x = x') as <- by (destruct Q; simpl in *; inversion E; inversion E'; congruence). exact T1. }
  split; [exact C1|]. split; [|split; [|exact NR]].
  - unfold cyc. cbn [app]. rewrite flt_cons, last_cons_default.
    assert (Klast : keepb (last (s' :: R') k) k s' = true).
    { change (k :: (s' :: R') ++ [k; s']) with ((k :: s' :: R') ++ [k; s']) in T'.
      assert (NE : s' :: R' <> []) by congruence. destruct (exists_last NE) as (Q & z & EQ).
      replace ((k :: s' :: R') ++ [k; s']) with ((k :: Q) ++ z :: k :: [s']) in T'.
      2:{ change ((k :: s' :: R') ++ [k; s']) with (k :: ((s' :: R') ++ [k; s'])). rewrite EQ, <- app_assoc. reflexivity. }
      apply triples_app in T'. destruct T' as [_ [(_ & _ & H) _]]. rewrite EQ, last_app_cons. exact H. }
    rewrite Klast. f_equal. apply (triples_flt (s' :: R') k k).
    replace ((s' :: R') ++ [k; s']) with (((s' :: R') ++ [k]) ++ [s']) in T' by (rewrite <- app_assoc; reflexivity).
    clear - T'. remember (s' :: R') as Q. clear HeqQ R'.
    assert (G : forall l x, triples kept3 (l ++ [x]) -> triples kept3 l).
    { induction l as [|a l IH]; intros x H; [exact I|]. destruct l as [|b l]; [exact I|].
      destruct l as [|c l]; [exact I|]. destruct H as [H1 H2]. split; [exact H1|]. apply (IH x). exact H2. }
    apply (G _ s'). exact T'.
  - unfold ring_area. cbn [app].
    change (k :: s' :: R' ++ [k]) with ((k :: s' :: R') ++ [k]).
    change (k :: s :: W ++ [k]) with ((k :: s :: W) ++ [k]).
    assert (A1 : path_area (k :: ((s' :: R') ++ [k]) ++ [s]) = path_area ((k :: s' :: R') ++ [k]) + path_area [k; s]).
    { rewrite <- app_assoc. cbn [app]. change (k :: s' :: R' ++ [k; s]) with ((k :: s' :: R') ++ k :: [s]).
      apply path_area_app. }
    assert (A2 : path_area (k :: s :: W ++ [k; s]) = path_area ((k :: s :: W) ++ [k]) + path_area [k; s]).
    { change (k :: s :: W ++ [k; s]) with ((k :: s :: W) ++ k :: [s]). apply path_area_app. }
    rewrite A1, A2 in A. lia.
Qed.

(** the filter is idempotent and keeps the area *)
Lemma cyc_facts vs : ring_ne vs ->
  cyc (cyc vs) = cyc vs /\ ring_area (cyc vs) = ring_area vs /\ (vs <> [] -> (2 <= length (cyc vs))%nat).
Proof.
  intros N. destruct vs as [|h t]; [simpl; repeat split; congruence|].
  destruct (kept_rotation h t N) as (A & k & B & E & NE & K). rewrite E in *.
  assert (N2 : ring_ne (k :: B ++ A)) by (apply (ring_ne_rotate A (k :: B)); exact N).
  destruct (cyc_anchored k (B ++ A) NE N2 K) as (C1 & C2 & C3 & C4).
  destruct (cyc_rotate A (k :: B)) as (C & D & E1 & E2 & _).
  cbn [app] in E2. rewrite C1 in E2. rewrite E1.
  assert (F : cyc (D ++ C) = D ++ C) by (rewrite <- E2; exact C2).
  split; [apply cyc_fixed_rotate; exact F|]. split.
  - rewrite ring_area_rotate, <- E2, C3. rewrite (ring_area_rotate A (k :: B)). reflexivity.
  - intros _. rewrite app_length, Nat.add_comm, <- app_length, <- E2.
    destruct (flt k ((B ++ A) ++ [k])); [congruence|]. simpl. lia.
Qed.

(** ** Reversal *)
Lemma keepb_sym p c n : keepb p c n = keepb n c p.
Proof.
  unfold keepb. f_equal; [f_equal|]; apply eq_true_iff_eq; unfold det, dot, vsub; simpl; lia.
Qed.
Lemma flt_rev l : forall p n, rev (flt p (l ++ [n])) = flt n (rev l ++ [p]).
Proof.
  induction l as [|c l IH]; intros p n; [reflexivity|]. cbn [app rev].
  rewrite <- app_assoc. cbn [app]. rewrite flt_app.
  rewrite <- IH.
  assert (H : exists x l', l ++ [n] = x :: l' /\ last (rev l) n = x).
  { destruct l as [|x l]; simpl; [eauto|]. exists x, (l ++ [n]). split; [reflexivity|].
    rewrite last_app_cons. reflexivity. }
  destruct H as (x & l' & E1 & E2). rewrite E2, E1, flt_cons.
  change (flt x [c; p]) with (if keepb x c p then [c] else []). rewrite (keepb_sym x c p).
  destruct (keepb p c x); cbn [rev]; [reflexivity|rewrite app_nil_r; reflexivity].
Qed.
Lemma last_rev {A} (h : A) t d : last (rev (h :: t)) d = h.
Proof. simpl. rewrite last_app_cons. reflexivity. Qed.
Lemma hd_rev {A} (l : list A) d : hd d (rev l) = last l d.
Proof. induction l using rev_ind; [reflexivity|]. rewrite rev_app_distr, last_app_cons. reflexivity. Qed.

Lemma cyc_rev vs : cyc (rev vs) = rev (cyc vs).
Proof.
  destruct vs as [|h t]; [reflexivity|]. pose proof (last_rev h t) as L. pose proof (hd_rev (h :: t) h) as H.
  unfold cyc at 1. destruct (rev (h :: t)) as [|z w] eqn:E; [apply (f_equal (@length _)) in E; rewrite rev_length in E; discriminate|].
  cbn [hd] in H. rewrite L. unfold cyc. rewrite flt_rev, E, <- H. reflexivity.
Qed.

Lemma path_area_rev l : path_area (rev l) = - path_area l.
Proof.
  induction l as [|a l IH]; [reflexivity|]. cbn [rev]. destruct l as [|b l]; [reflexivity|].
  cbn [rev] in *. rewrite <- app_assoc. cbn [app]. rewrite path_area_app, IH. simpl. lia.
Qed.
Lemma ring_area_rev vs : ring_area (rev vs) = - ring_area vs.
Proof.
  destruct vs as [|h t]; [reflexivity|]. cbn [rev].
  rewrite ring_area_rotate. cbn [app]. unfold ring_area. cbn [app].
  rewrite <- path_area_rev. f_equal. cbn [rev]. rewrite rev_app_distr. reflexivity.
Qed.
