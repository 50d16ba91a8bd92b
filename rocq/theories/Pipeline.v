(** Model of the commands of the Python layer with the file system they act on:
    [graph_generator.py], [graph_merger.py], [path_interpolator.py] and
    [datastructures/graph_file_paths.py]. *)
From Coq Require Import ZArith Bool List String.
From Verif Require Import Base F64 Coordinate Polygon Graph Visgraph Serializer ShortestPath PyLayer.
Import ListNotations.
Local Open Scope Z_scope.

(** A path is the list of its components; permissions, links, quotas and concurrent changes by
    other processes are left out. *)
Definition path := list string.
Inductive node := Dir | Doc (f : file).
Definition fs := path -> option node.
Definition path_eqb (p q : path) : bool := if list_eq_dec string_dec p q then true else false.
Definition put (p : path) (n : node) (s : fs) : fs := fun q => if path_eqb q p then Some n else s q.
Definition is_dir (n : option node) : bool := match n with Some Dir => true | _ => false end.

(** [os.mkdir]; a missing parent raises FileNotFoundError *)
Definition mkdir (p : path) (s : fs) : res fs :=
  match s p with
  | Some _ => Throw PyFileExists
  | None => if is_dir (s (removelast p)) then Ok (put p Dir s) else Throw FileError
  end.

(** graph_serializer.cpp:32-57, 298-318 with the path *)
Definition save_graph_to_file (g : graph) (p : path) (s : fs) : res fs :=
  if is_dir (s (removelast p)) && negb (is_dir (s p)) then
    f <- serialize_to_file g (match s p with Some (Doc f) => Some f | _ => None end) ;; Ok (put p (Doc f) s)
  else Throw FileError.

(** graph_serializer.cpp:59-75 with the path *)
Definition load_graph_from_file (limit : Z) (p : path) (s : fs) : res graph :=
  match s p with Some (Doc f) => deserialize_from_file limit f | _ => Throw FileError end.

(** graph_file_paths.py:11-12 *)
Definition default_graph_path (folder : path) : path := (folder ++ ["default"%string])%list.

(** a command acts on the file system and may raise; what it did before raising stays *)
Definition cmd (A : Type) := fs -> fs * res A.
Definition lift {A} (r : fs -> res A) : cmd A := fun s => (s, r s).
Definition effect (f : fs -> res fs) : cmd unit :=
  fun s => match f s with Ok s' => (s', Ok tt) | Throw e => (s, Throw e) | UB u => (s, UB u) end.
Definition andthen {A B} (m : cmd A) (k : A -> cmd B) : cmd B :=
  fun s => match m s with (s', Ok a) => k a s' | (s', Throw e) => (s', Throw e) | (s', UB u) => (s', UB u) end.

(** graph_generator.py:22-32; [shapes] is what pyshp makes of the shape file, [vis] the sweep *)
Definition generate_cmd (vis : list polygon -> vis_oracle) (shapes : res (list shape)) (out : path) : cmd unit :=
  andthen (effect (mkdir out)) (fun _ =>
  andthen (lift (fun _ => ss <- shapes ;; read_polygons_from_shapefile ss)) (fun ps =>
  andthen (lift (fun _ => generate (vis ps) ps)) (fun g =>
  effect (save_graph_to_file g (default_graph_path out))))).

(** graph_generator.py:34-51; [shuffle] is std::shuffle with the given seed *)
Definition generate_range_cmd (vis : list polygon -> vis_oracle) (shuffle : list coord -> list coord)
    (shapes : res (list shape)) (out : path) (cur num : Z) : cmd unit :=
  andthen (effect (mkdir out)) (fun _ =>
  andthen (lift (fun _ => ss <- shapes ;; read_polygons_from_shapefile ss)) (fun ps =>
  andthen (lift (fun _ => generate_for_vertex_range (vis ps) ps cur num (shuffle (polygon_vertices ps)))) (fun g =>
  effect (save_graph_to_file g (default_graph_path out))))).

(** graph_merger.py:10-24; [enum] lists the set of all polygons in its iteration order *)
Definition merge_cmd (limit : Z) (enum : list polygon -> list polygon) (inputs : list path) (out : path) : cmd unit :=
  andthen (effect (mkdir out)) (fun _ =>
  andthen (lift (fun s => mapM (fun p => load_graph_from_file limit (default_graph_path p) s) inputs)) (fun gs =>
  andthen (lift (fun _ => merge_graphs (enum (flat_map get_polygons gs)) gs)) (fun m =>
  effect (save_graph_to_file m (default_graph_path out))))).

(** path_interpolator.py:17-42: load, then query; [en] is what the query depends on besides *)
Definition interpolate_cmd (limit : Z) (folder : path) (en : graph -> env) (fuel : nat) (c1 c2 : pcoord) (radius : f64) (correct : bool)
    (s : fs) : option (res (list pcoord)) :=
  match load_graph_from_file limit (default_graph_path folder) s with
  | Ok g => interpolate fuel (en g) g c1 c2 radius correct
  | Throw e => Some (Throw e)
  | UB u => Some (UB u)
  end.

(** several commands one after the other *)
Fixpoint sequence (l : list (cmd unit)) : cmd unit :=
  match l with [] => fun s => (s, Ok tt) | c :: l' => andthen c (fun _ => sequence l') end.
