(** * container_kdtree.rs

    [T] stands for [Arc<Shape>]; [sh] gives the methods of a shape.

    [srt] stands for the standard library's [sort_by] with the comparison of lines 100-112
    ([edge_cmp]): theorems quantify over every function with the properties that the standard
    library promises ([sort_by_ok] in Spec/KdSpec.v).

    Simplifications: the array [edges] of three vectors (lines 86-90) is reduced to the vector of
    the axis at hand, since an axis is tried only after the earlier ones found no split, and only
    the vector of the best axis is used later; the nodes already pushed are passed and returned as
    a list.  [bad_refines] (a u8) is at most 3, so its increment cannot overflow. *)
From Coq Require Import ZArith List Bool.
From Verif Require Import Model.Num Model.Vector Model.BBox Model.Interaction Model.Shape Model.Container.
Import ListNotations.
Local Open Scope Z_scope.

(** container_kdtree.rs:12-15 *)
Definition MAX_SHAPES_IN_NODE : Z := 8.

(** container_kdtree.rs:23-28 *)
Inductive node (F T : Type) :=
| NSplit (a : axis) (t : F) (above : Z)
| NEmpty
| NShape (s : T)
| NShapes (l : list T).
Arguments NSplit {F T}. Arguments NEmpty {F T}. Arguments NShape {F T}. Arguments NShapes {F T}.

(** container_kdtree.rs:18-21 *)
Record kdtree (F T : Type) := mkKd { kd_bbox : bbox3 F; kd_nodes : list (node F T) }.
Arguments mkKd {F T}. Arguments kd_bbox {F T}. Arguments kd_nodes {F T}.

(** container_kdtree.rs:51-55, 63-67: [e_start] is [edge_type == BEdgeType::Start] *)
Record bedge (F T : Type) := mkEdge { e_start : bool; e_t : F; e_shape : T }.
Arguments mkEdge {F T}. Arguments e_start {F T}. Arguments e_t {F T}. Arguments e_shape {F T}.

(** container_kdtree.rs:206-209, 287-290 *)
Record todo (F : Type) := mkTodo { td_node : Z; td_min : F; td_max : F }.
Arguments mkTodo {F}. Arguments td_node {F}. Arguments td_min {F}. Arguments td_max {F}.

(** container_kdtree.rs:373-379 *)
Definition new_leaf {F T} (shapes : list T) : node F T :=
  match shapes with
  | [] => NEmpty
  | [s] => NShape s
  | _ => NShapes shapes
  end.

Section K.
  Context {F T : Type} {FO : FOps F}.
  Variable sh : T -> shape F T.
  Variable srt : list (bedge F T) -> res (list (bedge F T)).
  Local Open Scope f_scope.

  (** container_kdtree.rs:13-15 *)
  Definition ISECT_COST : F := fofZ 80.
  Definition TRAV_COST : F := f1.
  Definition EMPTY_BONUS : F := fhalf.

  (** container_kdtree.rs:100-112: the comparison *)
  Definition edge_cmp (a b : bedge F T) : comparison :=
    if e_t a <? e_t b then Lt
    else if e_t a >? e_t b then Gt
    else match e_start a, e_start b with
         | true, false => Lt
         | false, true => Gt
         | _, _ => Eq
         end.

  (** container_kdtree.rs:95-99: the edges of all shapes along an axis, before sorting *)
  Definition shape_edges (shapes : list T) (a : axis) : list (bedge F T) :=
    flat_map (fun s => [mkEdge true (v3get (bmin (sh_bbox (sh s))) a) s;
                        mkEdge false (v3get (bmax (sh_bbox (sh s))) a) s]) shapes.

  (** n_below, n_above, best cost, best edge *)
  Record scan := mkScan { sc_below : Z; sc_above : Z; sc_cost : F; sc_best : option Z }.

  (** container_kdtree.rs:126-138: the cost of a split at [t] *)
  Definition split_cost (node_bbox : bbox3 F) (a : axis) (t : F) (n_below n_above : Z) : F :=
    let d := bbox_diagonal node_bbox in
    let tot_sa := bbox_surface_area node_bbox in
    let '(a1, a2) := axis_others a in
    let below_sa := f2 * (v3get d a1 * v3get d a2 + (v3get d a1 + v3get d a2) * (t - v3get (bmin node_bbox) a)) in
    let above_sa := f2 * (v3get d a1 * v3get d a2 + (v3get d a1 + v3get d a2) * (v3get (bmax node_bbox) a - t)) in
    let p_below := below_sa / tot_sa in
    let p_above := above_sa / tot_sa in
    let empty_bonus := if ((n_below =? 0) || (n_above =? 0))%Z then EMPTY_BONUS else f0 in
    TRAV_COST + ISECT_COST * (f1 - empty_bonus) * (p_below * fofZ n_below + p_above * fofZ n_above).

  (** container_kdtree.rs:117-144: one round of the scan over the sorted edges *)
  Definition scan_step (m : build) (node_bbox : bbox3 F) (a : axis) (edges : list (bedge F T)) (st : scan) (i : Z)
    : res scan :=
    let! edge := idx edges i in
    let! n_above := (if e_start edge then Ok (sc_above st) else usize_of m (sc_above st - 1)%Z) in
    let t := e_t edge in
    let '(best_cost, best_edge) :=
      if (v3get (bmin node_bbox) a <? t) && (t <? v3get (bmax node_bbox) a) then
        let cost := split_cost node_bbox a t (sc_below st) n_above in
        if cost <? sc_cost st then (cost, Some i) else (sc_cost st, sc_best st)
      else (sc_cost st, sc_best st) in
    let! n_below := (if e_start edge then usize_of m (sc_below st + 1)%Z else Ok (sc_below st)) in
    Ok (mkScan n_below n_above best_cost best_edge).

  (** container_kdtree.rs:92-151: try up to [k] axes; returns the best cost, and the axis, edge
      number and sorted edges of the best split *)
  Fixpoint try_axes (m : build) (k : nat) (shapes : list T) (node_bbox : bbox3 F) (a : axis)
    : res (F * option (axis * Z * list (bedge F T))) :=
    match k with
    | O => Ok (fmaxv, None)
    | S k =>
      let n := Z.of_nat (length shapes) in
      let! edges := srt (shape_edges shapes a) in
      let! st := rfold (scan_step m node_bbox a edges)
                       (map Z.of_nat (seq 0 (2 * length shapes))) (mkScan 0 n fmaxv None) in
      match sc_best st with
      | Some i => Ok (sc_cost st, Some (a, i, edges))
      | None => try_axes m k shapes node_bbox (axis_next a)
      end
    end.

  (** container_kdtree.rs:173-182: the shapes of the two children *)
  Definition shapes_below (edges : list (bedge F T)) (i : Z) : list T :=
    map e_shape (filter (fun e => e_start e) (firstn (Z.to_nat i) edges)).
  Definition shapes_above (edges : list (bedge F T)) (i : Z) : list T :=
    map e_shape (filter (fun e => negb (e_start e)) (skipn (Z.to_nat (i + 1)) edges)).

  (** container_kdtree.rs:49-198 [build]; [depth] is the remaining depth *)
  Fixpoint kd_build (m : build) (depth : nat) (nodes : list (node F T)) (shapes : list T) (node_bbox : bbox3 F)
    (bad_refines : Z) : res (list (node F T)) :=
    let n_shapes := Z.of_nat (length shapes) in
    match depth with
    | O => Ok (nodes ++ [new_leaf shapes])
    | S depth =>
      if (n_shapes <=? MAX_SHAPES_IN_NODE)%Z then Ok (nodes ++ [new_leaf shapes])
      else
      let old_cost := ISECT_COST * fofZ n_shapes in
      let! a := bbox_max_extent node_bbox in
      let! (best_cost, best) := try_axes m 3 shapes node_bbox a in
      let bad_refines := if best_cost >? old_cost then (bad_refines + 1)%Z else bad_refines in
      let leaf := Ok (nodes ++ [new_leaf shapes]) in
      if ((best_cost >? fofZ 4 * old_cost) && (n_shapes <? MAX_SHAPES_IN_NODE * 2)%Z)
         || (match best with None => true | Some _ => false end) || (bad_refines =? 3)%Z
      then leaf
      else
      match best with
      | None => Panic
      | Some (best_axis, best_edge, edges) =>
        let! edge := idx edges best_edge in
        let t := e_t edge in
        let bbox_below := mkBB (bmin node_bbox) (v3set (bmax node_bbox) best_axis t) in
        let bbox_above := mkBB (v3set (bmin node_bbox) best_axis t) (bmax node_bbox) in
        let split_node_index := Z.of_nat (length nodes) in
        let! nodes := kd_build m depth (nodes ++ [NEmpty]) (shapes_below edges best_edge) bbox_below bad_refines in
        let! nodes := upd nodes split_node_index (fun _ => NSplit best_axis t (Z.of_nat (length nodes))) in
        kd_build m depth nodes (shapes_above edges best_edge) bbox_above bad_refines
      end
    end.

  (** container_kdtree.rs:39: the default depth [(8. + 1.3 * (n as f32).log(2.)).round() as u32];
      [log(b)] is [ln(x) / ln(b)] *)
  Definition default_depth (n : Z) : Z :=
    fto_u32 (fround (fofZ 8 + flit 13 1 * (fln (fofZ n) / fln f2))).

  (** container_kdtree.rs:32-44 [new] *)
  Definition kd_new (m : build) (shapes : list T) (max_depth : option Z) : res (kdtree F T) :=
    let! b := bbox_of_shapes sh shapes in
    let depth := match max_depth with Some d => d | None => default_depth (Z.of_nat (length shapes)) end in
    let! nodes := kd_build m (Z.to_nat depth) [] shapes b 0 in
    Ok (mkKd b nodes).

  (** container_kdtree.rs:237-246 and 320-329: the order of the two children *)
  Definition child_order (r : ray F) (a : axis) (t : F) (node_i above : Z) : Z * Z :=
    let o := v3get (r_o r) a in
    if (o <? t) || ((o =? t) && (v3get (r_d r) a <=? f0)) then ((node_i + 1)%Z, above) else (above, (node_i + 1)%Z).

  (** container_kdtree.rs:236-254 and 319-337: an interior node; the next node, the new [t_max]
      and the new stack *)
  Definition split_step (r : ray F) (a : axis) (t : F) (node_i above : Z) (t_min t_max : F) (todos : list (todo F))
    : Z * F * list (todo F) :=
    let t_split := (t - v3get (r_o r) a) / v3get (r_d r) a in
    let '(child_1, child_2) := child_order r a t node_i above in
    if (t_split >? t_max) || (t_split <=? f0) then (child_1, t_max, todos)
    else if t_split <? t_min then (child_2, t_max, todos)
    else (child_1, t_split, mkTodo child_2 t_split t_max :: todos).

  (** container_kdtree.rs:230-281: the loop of [intersect_p] *)
  Fixpoint kd_loop_p (nodes : list (node F T)) (fuel : nat) (r : ray F) (todos : list (todo F))
    (node_i : Z) (t_min t_max : F) : res bool :=
    match fuel with
    | O => Timeout
    | S fuel =>
      if r_tmax r <? t_min then Ok false
      else
      let! nd := idx nodes node_i in
      match nd with
      | NSplit a t above =>
        let '(node_i, t_max, todos) := split_step r a t node_i above t_min t_max todos in
        kd_loop_p nodes fuel r todos node_i t_min t_max
      | _ =>
        let shapes := match nd with NShape s => [s] | NShapes l => l | _ => [] end in
        let! b := any_hit sh shapes r in
        if b then Ok true
        else match todos with
        | td :: todos => kd_loop_p nodes fuel r todos (td_node td) (td_min td) (td_max td)
        | [] => Ok false
        end
      end
    end.

  (** container_kdtree.rs:206-284 [intersect_p] *)
  Definition kd_intersect_p (k : kdtree F T) (r : ray F) : res bool :=
    match bbox_intersect (kd_bbox k) r with
    | None => Ok false
    | Some (t_min, t_max) => kd_loop_p (kd_nodes k) (S (length (kd_nodes k))) r [] 0 t_min t_max
    end.

  (** container_kdtree.rs:313-366: the loop of [intersect] *)
  Fixpoint kd_loop (nodes : list (node F T)) (fuel : nat) (r : ray F) (i : option (interaction F T))
    (todos : list (todo F)) (node_i : Z) (t_min t_max : F) : res (option (interaction F T)) :=
    match fuel with
    | O => Timeout
    | S fuel =>
      if r_tmax r <? t_min then Ok i
      else
      let! nd := idx nodes node_i in
      match nd with
      | NSplit a t above =>
        let '(node_i, t_max, todos) := split_step r a t node_i above t_min t_max todos in
        kd_loop nodes fuel r i todos node_i t_min t_max
      | _ =>
        let shapes := match nd with NShape s => [s] | NShapes l => l | _ => [] end in
        let! (i, r) := last_hit sh shapes r i in
        match todos with
        | td :: todos => kd_loop nodes fuel r i todos (td_node td) (td_min td) (td_max td)
        | [] => Ok i
        end
      end
    end.

  (** container_kdtree.rs:286-369 [intersect] *)
  Definition kd_intersect (k : kdtree F T) (r : ray F) : res (option (interaction F T)) :=
    match bbox_intersect (kd_bbox k) r with
    | None => Ok None
    | Some (t_min, t_max) => kd_loop (kd_nodes k) (S (length (kd_nodes k))) r None [] 0 t_min t_max
    end.

  (** container_kdtree.rs:201-370 *)
  Definition kd_container (k : kdtree F T) : container F T :=
    mkCont (kd_bbox k) (kd_intersect_p k) (kd_intersect k).
End K.
