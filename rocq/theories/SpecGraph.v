(** Independent specification of an edge store: what a history of calls means. *)
From Coq Require Import ZArith Bool List.
From Verif Require Import Base Coordinate Graph.
Import ListNotations.

(** What a client sees of an ordered pair: not connected, or connected with the crossing flag. *)
Definition view := option bool.

(** One call seen from the ordered pair (a,b):  [None] if it does not concern the pair,
    [Some (Some m)] if it adds the pair with flag m, [Some None] if it removes it. *)
Definition event := option (option bool).

Definition same (a b x y : coord) : bool := coord_eqb a x && coord_eqb b y.

Definition event_of (a b : coord) (o : gop) : event :=
  match o with
  | GAdd x y m => if same a b x y || same a b y x then Some (Some m) else None
  | GAddDir x y m => if same a b x y then Some (Some m) else None
  | GRem x y => if same a b x y || same a b y x then Some None else None
  | GRemDir x y => if same a b x y then Some None else None
  end.

(** The flags of the additions of the pair since its last removal, newest first, for a
    history given newest first. *)
Fixpoint adds_since_removal (a b : coord) (newest_first : list gop) : list bool :=
  match newest_first with
  | [] => []
  | o :: h =>
      match event_of a b o with
      | None => adds_since_removal a b h
      | Some None => []
      | Some (Some m) => m :: adds_since_removal a b h
      end
  end.

(** connected iff some addition came after the last removal; crossing iff all of them cross *)
Definition spec_view (a b : coord) (h : list gop) : view :=
  match adds_since_removal a b (rev h) with
  | [] => None
  | fs => Some (forallb (fun m => m) fs)
  end.

Definition spec_connected (a b : coord) (h : list gop) : bool :=
  match spec_view a b h with None => false | Some _ => true end.
Definition spec_crossing (a b : coord) (h : list gop) : bool :=
  match spec_view a b h with Some true => true | _ => false end.

(** undirected calls *)
Definition undirected (o : gop) : Prop :=
  match o with GAdd _ _ _ | GRem _ _ => True | _ => False end.
Definition is_add (o : gop) : Prop :=
  match o with GAdd _ _ _ => True | _ => False end.

(** What a client can learn about an ordered pair from the two edge queries. *)
Definition answer (g : graph) (a b : coord) : view :=
  match has_edge g a b with
  | Ok true => match is_edge_meridian_crossing g a b with Ok c => Some c | _ => None end
  | _ => None
  end.

(** Graphs a client can build with undirected calls. *)
Definition built (g : graph) : Prop :=
  exists ps h, Forall undirected h /\ grun (make_graph ps) h = Ok g.

(** The flags with which the graphs of a list hold the pair. *)
Definition flags_of (gs : list graph) (a b : coord) : list bool :=
  flat_map (fun g => match answer g a b with Some c => [c] | None => [] end) gs.

(** Union of edges: present iff present somewhere, crossing iff crossing wherever present. *)
Definition union_view (gs : list graph) (a b : coord) : view :=
  match flags_of gs a b with [] => None | fs => Some (forallb (fun m => m) fs) end.
