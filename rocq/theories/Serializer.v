(** Model of [serialization/graph_serializer.cpp].  A mapped file is its length and the byte at
    each offset; an access outside it is undefined behaviour (mio's operator[] is unchecked).
    Simplifications: operating system failures are not modelled; sums of sizes of objects in
    memory ([size_t]) are taken without wrap-around, sums involving values read from a file
    wrap (u64); the OpenMP-free loops run in source order. *)
From Coq Require Import ZArith Bool List.
From Verif Require Import Base F64 Coordinate Segment Polygon Graph.
Import ListNotations.
Local Open Scope Z_scope.

Record file := mkF { f_len : Z; f_byte : Z -> Z }.

(** ** Writing.  The serializer never reads the mapping it writes, so a writer is the list of
    its byte writes (offset, value) in program order. *)
Definition bwrite := (Z * Z)%type.

(** line 267 *)
Definition write_byte (m : file) (w : bwrite) : res file :=
  let (off, v) := w in
  if (0 <=? off) && (off <? f_len m)
  then Ok (mkF (f_len m) (fun k => if k =? off then v else f_byte m k))
  else UB OutOfBounds.
Definition store (ws : list bwrite) (m : file) : res file := foldM write_byte ws m.

(** lines 247-252, [n] = 8, and 254-259, [n] = 4 *)
Definition put_bytes (n : nat) (val off : Z) : list bwrite :=
  map (fun k => (off + Z.of_nat k, Z.land (Z.shiftr val (8 * Z.of_nat k)) 255)) (seq 0 n).
Definition put_u64 (val off : Z) := put_bytes 8 val off.
Definition put_u32 (val off : Z) := put_bytes 4 val off.
(** lines 261-265: the two's complement bit pattern *)
Definition put_i32 (val off : Z) := put_u32 (val mod 4294967296) off.
(** line 267 *)
Definition put_u8 (val off : Z) : list bwrite := [(off, val)].

(** line 17 *)
Definition ceil_div (x y : Z) : Z := x / y + (if x mod y =? 0 then 0 else 1).

(** lines 88-101 for one polygon starting at [off] *)
Definition put_polygon (p : polygon) (off : Z) : list bwrite :=
  put_u64 (Z.of_nat (length (verts p))) off ++
  concat (map (fun jc => let '(j, c) := jc in
                let lon_off := off + 8 + 4 * (2 * Z.of_nat j) in
                put_i32 (lon c) lon_off ++ put_i32 (lat c) (lon_off + 4))
              (combine (seq 0 (length (verts p))) (verts p))).
(** lines 83-86 and 103: the offset after a polygon *)
Definition polygon_end (p : polygon) (off : Z) : Z := off + 8 + Z.of_nat (length (verts p)) * 4 * 2.

(** lines 77-104: the writes and the returned offset *)
Fixpoint put_polygons (ps : list polygon) (off : Z) : list bwrite * Z :=
  match ps with
  | [] => ([], off)
  | p :: ps' => let (ws, e) := put_polygons ps' (polygon_end p off) in (put_polygon p off ++ ws, e)
  end.

(** lines 111-115 and 182-186 *)
Fixpoint row_offset (off : Z) (i : nat) : Z :=
  match i with
  | O => off
  | S i' => row_offset off i' + ceil_div (Z.of_nat i') 8
  end.

Definition vertex_at (g : graph) (i : nat) : res coord := index_to_coordinate g i.

(** lines 119-127 *)
Definition encode_byte (g : graph) (i j : nat) : res Z :=
  foldM (fun enc l =>
           v1 <- vertex_at g i ;; v2 <- vertex_at g l ;;
           e <- has_edge g v1 v2 ;;
           Ok (Z.lor enc (Z.shiftl (if (e : bool) then 1 else 0) (Z.of_nat (l - j * 8)))))
        (seq (j * 8) (Nat.min ((j + 1) * 8) (i + 1) - j * 8)) 0.

(** lines 117-131 *)
Definition put_row (g : graph) (off : Z) (i : nat) : res (list bwrite) :=
  bs <- mapM (fun j => b <- encode_byte g i j ;; Ok (put_u8 b (row_offset off i + Z.of_nat j)))
             (seq 0 (Z.to_nat (ceil_div (Z.of_nat i) 8))) ;;
  Ok (concat bs).

(** lines 138 and 204 *)
Definition edge_number (i j : nat) : Z := Z.of_nat j + (Z.of_nat i * Z.of_nat i + Z.of_nat i) / 2.

(** lines 134-145: writes and the running counter *)
Definition put_crossings (g : graph) (back : Z) : res (list bwrite * Z) :=
  foldM (fun st i =>
    foldM (fun st j =>
      let '(ws, cur) := st in
      vi <- vertex_at g i ;; vj <- vertex_at g j ;;
      c <- is_edge_meridian_crossing g vi vj ;;
      Ok (if (c : bool) then (ws ++ put_u64 (edge_number i j) ((cur + 1) * 8 + back), cur + 1) else (ws, cur)))
      (seq 0 i) st)
    (seq 0 (length (get_vertices g))) ([], 0).

(** lines 106-148 *)
Definition put_adjacency (g : graph) (off : Z) (num_crossing : Z) : res (list bwrite) :=
  let n := length (get_vertices g) in
  rows <- mapM (put_row g off) (seq 0 n) ;;
  let back := row_offset off n in
  cr <- put_crossings g back ;;
  Ok (concat rows ++ put_u64 num_crossing back ++ fst cr).

(** lines 236-245 *)
Definition count_crossings (g : graph) : res Z :=
  foldM (fun n v1 => foldM (fun n v2 => c <- is_edge_meridian_crossing g v1 v2 ;; Ok (n + (if (c : bool) then 1 else 0)))
                           (get_vertices g) n)
        (get_vertices g) 0.

(** lines 216-234 *)
Definition num_bytes (g : graph) (num_crossing : Z) : Z :=
  let np := Z.of_nat (length (get_polygons g)) in
  let nv := Z.of_nat (length (get_vertices g)) in
  let fl := nv / 8 in
  let ce := ceil_div nv 8 in
  let adj := 8 * ((fl * fl + fl) / 2) + (nv - 8 * fl) * ce in
  8 + 8 * np + 4 * 2 * nv + adj + 8 * (num_crossing + 1).

(** lines 298-318: the file is created if missing and resized, keeping its old bytes; bytes
    beyond the old end read as zero.  [None]: no file at the path. *)
Definition allocate_file (old : option file) (n : Z) : file :=
  mkF n (fun k => match old with
                  | Some f => if (0 <=? k) && (k <? f_len f) then f_byte f k else 0
                  | None => 0
                  end).

(** lines 32-57: all the byte writes of a save, and the allocated size *)
Definition save_writes (g : graph) : res (Z * list bwrite) :=
  nc <- count_crossings g ;;
  let '(pw, poly_offset) := put_polygons (get_polygons g) 8 in
  aw <- put_adjacency g poly_offset nc ;;
  Ok (num_bytes g nc, put_u64 (Z.of_nat (length (get_polygons g))) 0 ++ pw ++ aw).

Definition serialize_to_file (g : graph) (old : option file) : res file :=
  '(n, ws) <- save_writes g ;; store ws (allocate_file old n).

(** the file if the process dies after [k] byte writes *)
Definition crashed_save (g : graph) (old : option file) (k : nat) : res file :=
  '(n, ws) <- save_writes g ;; store (firstn k ws) (allocate_file old n).

(** ** Reading *)
(** line 296 *)
Definition read_byte (m : file) (off : Z) : res Z :=
  if (0 <=? off) && (off <? f_len m) then Ok (f_byte m off) else UB OutOfBounds.

(** lines 269-276, [n] = 8, and 278-285, [n] = 4 *)
Definition get_bytes (n : nat) (m : file) (off : Z) : res Z :=
  foldM (fun val i => b <- read_byte m (u64 (off + Z.of_nat i)) ;; Ok (Z.lor val (Z.shiftl b (8 * Z.of_nat i))))
        (seq 0 n) 0.
Definition get_u64 := get_bytes 8.
Definition get_u32 := get_bytes 4.
(** lines 287-294 *)
Definition get_i32 (m : file) (off : Z) : res Z :=
  b <- get_u32 m off ;; Ok (if b <? 2147483648 then b else b - 4294967296).

(** lines 152 and 159: [std::vector<T>(n)]; [limit] is the largest size the allocator grants *)
Definition alloc (limit n : Z) : res unit := if limit <? n then Throw AllocFailure else Ok tt.

(** lines 159-166 *)
Definition get_vertex_list (limit : Z) (m : file) (num off : Z) : res (list coord) :=
  _ <- alloc limit num ;;
  mapM (fun j => let lon_off := u64 (off + Z.of_nat j * 8) in
                 x <- get_i32 m lon_off ;;
                 y <- get_i32 m (u64 (lon_off + 4)) ;;
                 Ok (mkC x y))
       (seq 0 (Z.to_nat num)).

(** lines 154-171 *)
Fixpoint get_polygons_from (fuel : nat) (limit : Z) (m : file) (off : Z) : res (list polygon * Z) :=
  match fuel with
  | O => Ok ([], off)
  | S f =>
      num <- get_u64 m off ;;
      let off1 := u64 (off + 8) in
      vs <- get_vertex_list limit m num off1 ;;
      p <- make_polygon vs ;;
      '(ps, e) <- get_polygons_from f limit m (u64 (off1 + num * 8)) ;;
      Ok (p :: ps, e)
  end.

(** lines 188-193 *)
Definition get_crossings (m : file) (back : Z) : res (list Z) :=
  cnt <- get_u64 m back ;;
  mapM (fun i => get_u64 m (u64 (back + (Z.of_nat i + 1) * 8))) (seq 0 (Z.to_nat cnt)).

(** lines 197-209 for one byte of one row *)
Definition load_byte (m : file) (crossings : list Z) (off : Z) (i : nat) (g : graph) (j : nat) : res graph :=
  enc <- read_byte m (u64 (row_offset off i + Z.of_nat j)) ;;
  foldM (fun g l =>
    if Z.testbit enc (Z.of_nat l) then
      let nb := (j * 8 + l)%nat in
      vi <- vertex_at g i ;; vn <- vertex_at g nb ;;
      add_edge g vi vn (existsb (Z.eqb (edge_number i nb)) crossings)
    else Ok g)
    (seq 0 (Nat.min 8 (length (get_vertices g) - j * 8))) g.

(** lines 178-214 *)
Definition get_adjacency (m : file) (g : graph) (off : Z) : res graph :=
  let n := length (get_vertices g) in
  crossings <- get_crossings m (u64 (row_offset off n)) ;;
  foldM (fun g i => foldM (load_byte m crossings off i) (seq 0 (Z.to_nat (ceil_div (Z.of_nat i) 8))) g)
        (seq 0 n) g.

(** lines 59-75; mapping an empty file fails *)
Definition deserialize_from_file (limit : Z) (m : file) : res graph :=
  if f_len m <=? 0 then Throw FileError else
  num <- get_u64 m 0 ;;
  _ <- alloc limit num ;;
  '(ps, off) <- get_polygons_from (Z.to_nat num) limit m 8 ;;
  get_adjacency m (make_graph ps) off.
