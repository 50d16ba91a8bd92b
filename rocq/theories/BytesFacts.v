(** Byte-level facts about the serializer: sequential writes and scalar encodings. *)
From Coq Require Import ZArith Bool List Lia.
From Verif Require Import Base F64 Coordinate Segment Polygon Graph GraphFacts GraphMore Serializer.
Import ListNotations.
Local Open Scope Z_scope.

Definition zlen {A} (l : list A) : Z := Z.of_nat (length l).
Lemma zlen_app {A} (a b : list A) : zlen (a ++ b) = zlen a + zlen b.
Proof. unfold zlen. rewrite app_length. lia. Qed.
Lemma zlen_nonneg {A} (l : list A) : 0 <= zlen l. Proof. unfold zlen. lia. Qed.
Lemma zlen_cons {A} (x : A) l : zlen (x :: l) = 1 + zlen l.
Proof. unfold zlen. cbn [length]. lia. Qed.

(** consecutive byte writes *)
Fixpoint seqw (off : Z) (l : list Z) : list bwrite :=
  match l with
  | [] => []
  | b :: l' => (off, b) :: seqw (off + 1) l'
  end.
Lemma seqw_app off l1 : forall l2, seqw off (l1 ++ l2) = seqw off l1 ++ seqw (off + zlen l1) l2.
Proof.
  revert off. induction l1 as [|b l1 IH]; intros off l2.
  - cbn [app seqw]. unfold zlen. cbn [length]. rewrite Z.add_0_r. reflexivity.
  - cbn [app seqw]. rewrite IH, zlen_cons. do 3 f_equal. lia.
Qed.
Lemma seqw_length off l : length (seqw off l) = length l.
Proof. revert off. induction l as [|b l IH]; intros off; cbn [seqw length]; [|rewrite IH]; reflexivity. Qed.
Lemma seqw_firstn k : forall off l, firstn k (seqw off l) = seqw off (firstn k l).
Proof.
  induction k as [|k IH]; intros off l; [reflexivity|]. destruct l as [|b l]; [reflexivity|].
  cbn [seqw firstn]. rewrite IH. reflexivity.
Qed.

(** the file holds the bytes [l] at [off] *)
Definition has (m : file) (off : Z) (l : list Z) : Prop :=
  0 <= off /\ off + zlen l <= f_len m /\ forall k, (k < length l)%nat -> f_byte m (off + Z.of_nat k) = nth k l 0.

Lemma has_app m off l1 l2 : has m off (l1 ++ l2) <-> has m off l1 /\ has m (off + zlen l1) l2.
Proof.
  unfold has. rewrite zlen_app. pose proof (zlen_nonneg l1). pose proof (zlen_nonneg l2). split.
  - intros (A & B & C). split.
    + split; [lia|]. split; [lia|]. intros k Hk. rewrite C by (rewrite app_length; lia).
      apply app_nth1. exact Hk.
    + split; [lia|]. split; [lia|]. intros k Hk.
      replace (off + zlen l1 + Z.of_nat k) with (off + Z.of_nat (length l1 + k)) by (unfold zlen; lia).
      rewrite C by (rewrite app_length; lia). rewrite app_nth2 by lia. f_equal. lia.
  - intros ((A & B & C) & (A' & B' & C')). split; [lia|]. split; [lia|]. intros k Hk. rewrite app_length in Hk.
    destruct (Nat.lt_ge_cases k (length l1)) as [L|L].
    + rewrite app_nth1 by exact L. apply C, L.
    + rewrite app_nth2 by exact L. rewrite <- C' by lia. f_equal. unfold zlen. lia.
Qed.

Lemma store_seqw l : forall off m, 0 <= off -> off + zlen l <= f_len m ->
  exists m', store (seqw off l) m = Ok m' /\ f_len m' = f_len m /\ has m' off l /\
    forall k, (k < off \/ off + zlen l <= k) -> f_byte m' k = f_byte m k.
Proof.
  induction l as [|b l IH]; intros off m H0 H1.
  - exists m. split; [reflexivity|]. split; [reflexivity|]. split; [|reflexivity].
    split; [lia|]. split; [exact H1|]. intros k Hk. simpl in Hk. lia.
  - rewrite zlen_cons in *. pose proof (zlen_nonneg l) as P. cbn [seqw]. unfold store. cbn [foldM]. unfold write_byte at 1.
    replace ((0 <=? off) && (off <? f_len m)) with true
      by (symmetry; apply andb_true_intro; split; [apply Z.leb_le|apply Z.ltb_lt]; lia).
    unfold bind. set (m1 := mkF _ _).
    destruct (IH (off + 1) m1) as (m' & E & L & Hh & Fr); [lia|change (f_len m1) with (f_len m); lia|].
    change (f_len m1) with (f_len m) in L.
    exists m'. split; [exact E|]. split; [exact L|]. split.
    + split; [lia|]. rewrite zlen_cons, L. split; [lia|]. intros k Hk. destruct k as [|k].
      * rewrite Fr by lia. simpl. rewrite Z.add_0_r, Z.eqb_refl. reflexivity.
      * destruct Hh as (_ & _ & Hh). cbn [nth]. rewrite <- Hh by (simpl in Hk; lia). f_equal. lia.
    + intros k Hk. rewrite Fr by lia. simpl. destruct (Z.eqb_spec k off); [lia|reflexivity].
Qed.

(** ** Little endian encodings *)
Definition le (n : nat) (v : Z) : list Z := map (fun k => Z.land (Z.shiftr v (8 * Z.of_nat k)) 255) (seq 0 n).

Lemma le_length n v : length (le n v) = n.
Proof. unfold le. rewrite map_length, seq_length. reflexivity. Qed.
Lemma le_zlen n v : zlen (le n v) = Z.of_nat n.
Proof. unfold zlen. rewrite le_length. reflexivity. Qed.

Lemma put_bytes_seqw n v off : put_bytes n v off = seqw off (le n v).
Proof.
  unfold put_bytes, le.
  assert (G : forall s, map (fun k => (off + Z.of_nat k, Z.land (Z.shiftr v (8 * Z.of_nat k)) 255)) (seq s n) =
            seqw (off + Z.of_nat s) (map (fun k => Z.land (Z.shiftr v (8 * Z.of_nat k)) 255) (seq s n))).
  { induction n as [|n IH]; intros s; [reflexivity|]. cbn [seq map seqw]. rewrite IH. do 2 f_equal. lia. }
  rewrite (G 0%nat). f_equal. lia.
Qed.

Lemma le_nth n v k : (k < n)%nat -> nth k (le n v) 0 = v / 2 ^ (8 * Z.of_nat k) mod 256.
Proof.
  intros H. unfold le. rewrite nth_indep with (d' := Z.land (Z.shiftr v (8 * Z.of_nat 0)) 255)
    by (rewrite map_length, seq_length; exact H).
  rewrite (map_nth (fun k => Z.land (Z.shiftr v (8 * Z.of_nat k)) 255)), seq_nth by exact H.
  replace 255 with (Z.ones 8) by reflexivity. rewrite Z.land_ones by lia. rewrite Z.shiftr_div_pow2 by lia. reflexivity.
Qed.

(** the value of [n] bytes at [off], least significant first *)
Fixpoint value_at (n : nat) (m : file) (off : Z) : Z :=
  match n with
  | O => 0
  | S n' => Z.lor (value_at n' m off) (Z.shiftl (f_byte m (off + Z.of_nat n')) (8 * Z.of_nat n'))
  end.

Definition small_file (m : file) : Prop := f_len m < 9223372036854775808.

Lemma u64_small z : 0 <= z < 18446744073709551616 -> u64 z = z.
Proof. intros. unfold u64. apply Z.mod_small. exact H. Qed.

Lemma get_bytes_ok n m off : small_file m -> 0 <= off -> off + Z.of_nat n <= f_len m ->
  get_bytes n m off = Ok (value_at n m off).
Proof.
  intros S H0. unfold get_bytes. induction n as [|n IH]; intros H1; [reflexivity|].
  rewrite seq_S, foldM_app, IH by lia. cbn [bind foldM Nat.add]. unfold small_file in S.
  rewrite u64_small by lia. unfold read_byte.
  replace ((0 <=? off + Z.of_nat n) && (off + Z.of_nat n <? f_len m)) with true
    by (symmetry; apply andb_true_intro; split; [apply Z.leb_le|apply Z.ltb_lt]; lia).
  reflexivity.
Qed.

Lemma le_prefix n v : le (S n) v = le n v ++ [Z.land (Z.shiftr v (8 * Z.of_nat n)) 255].
Proof. unfold le. rewrite seq_S, map_app. reflexivity. Qed.

Lemma value_at_has n : forall m off v, has m off (le n v) -> value_at n m off = v mod 2 ^ (8 * Z.of_nat n).
Proof.
  induction n as [|n IH]; intros m off v H.
  - simpl. rewrite Z.mod_1_r. reflexivity.
  - rewrite le_prefix in H. apply has_app in H. destruct H as [H1 H2].
    cbn [value_at]. rewrite (IH m off v H1).
    destruct H2 as (_ & _ & H2). specialize (H2 0%nat ltac:(simpl; lia)). rewrite le_zlen in H2. cbn [nth] in H2.
    rewrite Z.add_0_r in H2. rewrite H2.
    set (N := 8 * Z.of_nat n). replace (8 * Z.of_nat (S n)) with (N + 8) by (unfold N; lia).
    assert (PN : 0 <= N) by (unfold N; lia).
    apply Z.bits_inj'. intros i Hi. rewrite Z.lor_spec.
    replace 255 with (Z.ones 8) by reflexivity.
    destruct (Z.lt_ge_cases i N) as [A|A].
    + rewrite (Z.mod_pow2_bits_low v N) by lia. rewrite (Z.mod_pow2_bits_low v (N + 8)) by lia.
      rewrite Z.shiftl_spec_low by lia. apply orb_false_r.
    + rewrite (Z.mod_pow2_bits_high v N) by lia. rewrite Z.shiftl_spec by lia. rewrite Z.land_spec, Z.shiftr_spec by lia.
      replace (i - N + N) with i by lia. cbn [orb].
      destruct (Z.lt_ge_cases i (N + 8)) as [B|B].
      * rewrite Z.mod_pow2_bits_low by lia. rewrite Z.ones_spec_low by lia. apply andb_true_r.
      * rewrite Z.mod_pow2_bits_high by lia. rewrite Z.ones_spec_high by lia. apply andb_false_r.
Qed.

Lemma get_bytes_has n m off v : small_file m -> has m off (le n v) -> 0 <= v < 2 ^ (8 * Z.of_nat n) ->
  get_bytes n m off = Ok v.
Proof.
  intros S H R. rewrite get_bytes_ok; auto.
  - rewrite (value_at_has n m off v H), Z.mod_small by exact R. reflexivity.
  - apply H.
  - destruct H as (_ & H & _). rewrite le_zlen in H. exact H.
Qed.

Definition le_i32 (v : Z) : list Z := le 4 (v mod 4294967296).
Lemma put_i32_seqw v off : put_i32 v off = seqw off (le_i32 v).
Proof. unfold put_i32, put_u32, le_i32. apply put_bytes_seqw. Qed.

Lemma get_i32_has m off v : small_file m -> has m off (le_i32 v) -> INT32_MIN <= v <= INT32_MAX -> get_i32 m off = Ok v.
Proof.
  intros S H R. unfold get_i32, get_u32. unfold INT32_MIN, INT32_MAX in R.
  assert (P : 0 <= v mod 4294967296 < 4294967296) by (apply Z.mod_pos_bound; lia).
  rewrite (get_bytes_has 4 m off (v mod 4294967296) S H) by exact P.
  unfold bind. f_equal.
  destruct (Z.lt_ge_cases v 0) as [N|N].
  - assert (E : v mod 4294967296 = v + 4294967296).
    { symmetry. apply Z.mod_unique with (-1); lia. }
    rewrite E. destruct (Z.ltb_spec (v + 4294967296) 2147483648); lia.
  - rewrite Z.mod_small by lia. destruct (Z.ltb_spec v 2147483648); lia.
Qed.

(** ** Writing one scalar (C39) *)
Lemma write_scalar n v off m : 0 <= off -> off + Z.of_nat n <= f_len m ->
  exists m', store (put_bytes n v off) m = Ok m' /\ f_len m' = f_len m /\
    (forall k, 0 <= k < Z.of_nat n -> f_byte m' (off + k) = v / 2 ^ (8 * k) mod 256) /\
    (forall k, (k < off \/ off + Z.of_nat n <= k) -> f_byte m' k = f_byte m k) /\
    (small_file m -> 0 <= v < 2 ^ (8 * Z.of_nat n) -> get_bytes n m' off = Ok v).
Proof.
  intros H0 H1. rewrite put_bytes_seqw.
  destruct (store_seqw (le n v) off m) as (m' & E & L & H & F); rewrite ?le_zlen; auto.
  exists m'. split; [exact E|]. split; [exact L|]. split; [|split].
  - intros k Hk. destruct H as (_ & _ & H). specialize (H (Z.to_nat k)).
    rewrite le_length, Z2Nat.id in H by lia. rewrite H by lia. rewrite le_nth by lia. rewrite Z2Nat.id by lia. reflexivity.
  - intros k Hk. apply F. rewrite le_zlen. exact Hk.
  - intros S R. apply get_bytes_has; auto. unfold small_file in *. lia.
Qed.

Lemma write_i32 v off m : 0 <= off -> off + 4 <= f_len m -> INT32_MIN <= v <= INT32_MAX ->
  exists m', store (put_i32 v off) m = Ok m' /\ f_len m' = f_len m /\
    (forall k, 0 <= k < 4 -> f_byte m' (off + k) = v / 2 ^ (8 * k) mod 256) /\
    (forall k, (k < off \/ off + 4 <= k) -> f_byte m' k = f_byte m k) /\
    (small_file m -> get_i32 m' off = Ok v).
Proof.
  intros H0 H1 R. unfold put_i32, put_u32.
  destruct (write_scalar 4 (v mod 4294967296) off m H0 H1) as (m' & E & L & B & F & G).
  exists m'. split; [exact E|]. split; [exact L|]. split; [|split].
  - intros k Hk. rewrite B by lia.
    change 4294967296 with (2 ^ 32). change 256 with (2 ^ 8).
    apply Z.bits_inj'. intros i Hi. destruct (Z.lt_ge_cases i 8) as [A|A].
    + rewrite !Z.mod_pow2_bits_low by lia. rewrite !Z.div_pow2_bits by lia. rewrite Z.mod_pow2_bits_low by lia. reflexivity.
    + rewrite !Z.mod_pow2_bits_high by lia. reflexivity.
  - exact F.
  - intros S. unfold get_i32, get_u32. rewrite G; auto; [|apply Z.mod_pos_bound; lia]. unfold bind. f_equal.
    unfold INT32_MIN, INT32_MAX in R. destruct (Z.lt_ge_cases v 0) as [N|N].
    + assert (Eq : v mod 4294967296 = v + 4294967296) by (symmetry; apply Z.mod_unique with (-1); lia).
      rewrite Eq. destruct (Z.ltb_spec (v + 4294967296) 2147483648); lia.
    + rewrite Z.mod_small by lia. destruct (Z.ltb_spec v 2147483648); lia.
Qed.
