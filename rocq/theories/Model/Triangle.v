(** * shape_triangle.rs *)
From Coq Require Import ZArith List Bool.
From Verif Require Import Model.Num Model.Vector Model.Common Model.BBox Model.Interaction Model.Shape.
Import ListNotations.
Local Open Scope Z_scope.

(** [[T; 3]] *)
Record tri (A : Type) := mk3 { t0 : A; t1 : A; t2 : A }.
Arguments mk3 {A}. Arguments t0 {A}. Arguments t1 {A}. Arguments t2 {A}.

(** shape_triangle.rs:11-17 (the material is in Model/Path.v) *)
Record triangle (F : Type) := mkTri {
  tr_v : tri (V3 F);
  tr_vn : option (tri (V3 F));
  tr_rev : bool;
}.
Arguments mkTri {F}. Arguments tr_v {F}. Arguments tr_vn {F}. Arguments tr_rev {F}.

(** shape_triangle.rs:24-51 [new_triangle_mesh] (the shared material is left out) *)
Definition new_triangle_mesh {F} (vertices : list (V3 F)) (indices : list (tri Z))
  (vertex_normals : option (list (V3 F))) (vertex_normal_indices : option (list (tri Z)))
  : res (list (triangle F)) :=
  let vns := match vertex_normals with Some l => l | None => [] end in
  let vnis := match vertex_normal_indices with Some l => l | None => [] end in
  let has_vertex_normals := (Z.of_nat (length vnis) >=? Z.of_nat (length indices)) in
  rmapm (fun i =>
    let! vi := idx indices i in
    let! a := idx vertices (t0 vi) in
    let! b := idx vertices (t1 vi) in
    let! c := idx vertices (t2 vi) in
    let! vn :=
      (if has_vertex_normals then
         let! vni := idx vnis i in
         let! na := idx vns (t0 vni) in
         let! nb := idx vns (t1 vni) in
         let! nc := idx vns (t2 vni) in
         Ok (Some (mk3 na nb nc))
       else Ok None) in
    Ok (mkTri (mk3 a b c) vn false))
  (map Z.of_nat (seq 0 (length indices))).

Section S.
  Context {F T : Type} {O : FOps F}.
  Local Open Scope f_scope.

  Definition tmap {A B} (f : A -> B) (x : tri A) : tri B := mk3 (f (t0 x)) (f (t1 x)) (f (t2 x)).

  (** shape_triangle.rs:63-66 [bbox] *)
  Definition tr_bbox (s : triangle F) : bbox3 F :=
    bbox_union_point (bbox_new (t0 (tr_v s)) (t1 (tr_v s))) (t2 (tr_v s)).

  (** shape_triangle.rs:68-70 [area] *)
  Definition tr_area (s : triangle F) : F :=
    fhalf * v3length (v3cross (v3sub (t1 (tr_v s)) (t0 (tr_v s))) (v3sub (t2 (tr_v s)) (t0 (tr_v s)))).

  (** shape_triangle.rs:84-89, 150-155: a vertex in ray coordinates *)
  Definition to_ray_space (o : V3 F) (ax ay az : axis) (sx sy : F) (p : V3 F) : V3 F :=
    let p := v3add p (v3neg o) in
    let p := v3permute p ax ay az in
    let p := mkV3 (vx p + vz p * sx) (vy p) (vz p) in
    mkV3 (vx p) (vy p + vz p * sy) (vz p).

  Definition max3 (a b c : F) : F := max_component (v3abs (mkV3 a b c)).

  (** shape_triangle.rs:72-136 [intersect_p] *)
  Definition tr_intersect_p (s : triangle F) (r : ray F) : res bool :=
    let vs_o := tr_v s in
    let! max_axis := max_abs_axis (r_d r) in
    let ax := axis_prev max_axis in let ay := axis_next max_axis in let az := max_axis in
    let d := v3permute (r_d r) ax ay az in
    let sx := - vx d / vz d in let sy := - vy d / vz d in let sz := f1 / vz d in
    let vs := tmap (to_ray_space (r_o r) ax ay az sx sy) vs_o in
    let e0 := vx (t1 vs) * vy (t2 vs) - vy (t1 vs) * vx (t2 vs) in
    let e1 := vx (t2 vs) * vy (t0 vs) - vy (t2 vs) * vx (t0 vs) in
    let e2 := vx (t0 vs) * vy (t1 vs) - vy (t0 vs) * vx (t1 vs) in
    if ((e0 <? f0) || (e1 <? f0) || (e2 <? f0)) && ((e0 >? f0) || (e1 >? f0) || (e2 >? f0))
    then Ok false
    else
    let det := e0 + e1 + e2 in
    if det =? f0 then Ok false
    else
    let vs := tmap (fun p => mkV3 (vx p) (vy p) (vz p * sz)) vs in
    let t_scaled := vz (t0 vs) * e0 + vz (t1 vs) * e1 + vz (t2 vs) * e2 in
    if ((det <? f0) && ((t_scaled <? r_tmax r * det) || (f0 <=? t_scaled)))
       || ((det >? f0) && ((t_scaled <=? f0) || (r_tmax r * det <? t_scaled)))
    then Ok false
    else
    let t := t_scaled / det in
    let max_x := max3 (vx (t0 vs)) (vx (t1 vs)) (vx (t2 vs)) in
    let max_y := max3 (vy (t0 vs)) (vy (t1 vs)) (vy (t2 vs)) in
    let max_z := max3 (vz (t0 vs)) (vz (t1 vs)) (vz (t2 vs)) in
    let delta_x := max_x * gamma (fofZ 5) in
    let delta_y := max_y * gamma (fofZ 5) in
    let delta_z := max_z * gamma (fofZ 3) in
    let delta_e := (gamma (fofZ 2) * max_x * max_y + max_x * delta_y + max_y * delta_x) * f2 in
    let max_e := max3 e0 e1 e2 in
    let delta_t := fofZ 3 * (gamma (fofZ 3) * max_e * max_z + max_z * delta_e + max_e * delta_z) / fabs det in
    if t <=? delta_t then Ok false else Ok true.

  (** shape_triangle.rs:53-59 [get_uv] *)
  Definition tr_uv : tri (P2 F) := mk3 (mkP2 f0 f0) (mkP2 f1 f0) (mkP2 f1 f1).

  (** [Point2f * f32], [Point2f + Point2f], [Point2f - Point2f] (vector.rs macros) *)
  Definition p2scale (p : P2 F) (k : F) : P2 F := mkP2 (px p * k) (py p * k).
  Definition p2addf (p q : P2 F) : P2 F := mkP2 (px p + px q) (py p + py q).
  Definition p2subf (p q : P2 F) : P2 F := mkP2 (px p - px q) (py p - py q).

  Definition bary (v : tri (V3 F)) (b0 b1 b2 : F) : V3 F :=
    v3add (v3add (v3scale (t0 v) b0) (v3scale (t1 v) b1)) (v3scale (t2 v) b2).

  (** shape_triangle.rs:206-212, 299-305: interpolated position and its error bound *)
  Definition bary_err (v : tri (V3 F)) (b0 b1 b2 : F) : V3 F :=
    v3scale (v3add (v3add (v3abs (v3scale (t0 v) b0)) (v3abs (v3scale (t1 v) b1))) (v3abs (v3scale (t2 v) b2)))
            (gamma (fofZ 7)).

  (** shape_triangle.rs:214-228: the partial derivatives before the shading normal is known *)
  Definition tr_partials (vs_o : tri (V3 F)) : V3 F * V3 F :=
    let uv := tr_uv in
    let duv02 := p2subf (t0 uv) (t2 uv) in
    let duv12 := p2subf (t1 uv) (t2 uv) in
    let dp02 := v3sub (t0 vs_o) (t2 vs_o) in
    let dp12 := v3sub (t1 vs_o) (t2 vs_o) in
    let det := px duv02 * py duv12 - py duv02 * px duv12 in
    if fabs det <? feps then
      construct_coordinate_system
        (v3normalize (v3cross (v3sub (t2 vs_o) (t0 vs_o)) (v3sub (t1 vs_o) (t0 vs_o))))
    else
      (v3divs (v3sub (v3scale dp02 (py duv12)) (v3scale dp12 (py duv02))) det,
       v3divs (v3add (v3scale dp02 (- px duv12)) (v3scale dp12 (px duv02))) det).

  (** shape_triangle.rs:234-267: normals and final partial derivatives: (n, sn, dpdu, dpdv) *)
  Definition tr_frame (s : triangle F) (b0 b1 b2 : F) : V3 F * V3 F * V3 F * V3 F :=
    let vs_o := tr_v s in
    let dp02 := v3sub (t0 vs_o) (t2 vs_o) in
    let dp12 := v3sub (t1 vs_o) (t2 vs_o) in
    let '(dpdu, dpdv) := tr_partials vs_o in
    let n := v3normalize (v3cross dp02 dp12) in
    let '(sn, dpdu, dpdv) :=
      match tr_vn s with
      | Some vn =>
        let sn := bary vn b0 b1 b2 in
        let len := v3length sn in
        let sn := if len >=? f0 then v3divs sn len else n in
        let dpdu := v3normalize dpdu in
        let dpdv := v3cross dpdu sn in
        let len := v3length dpdv in
        if len >? f0 then
          let dpdv := v3divs dpdv len in
          (sn, v3cross dpdv sn, dpdv)
        else
          let '(du, dv) := construct_coordinate_system sn in
          (sn, du, dv)
      | None => (n, dpdu, dpdv)
      end in
    let sn := if tr_rev s then v3scale sn (fofZ (-1)) else sn in
    let n := if v3dot n sn <? f0 then v3scale n (fofZ (-1)) else n in
    (n, sn, dpdu, dpdv).

  (** shape_triangle.rs:138-283 [intersect] *)
  Definition tr_intersect (s : triangle F) (r : ray F) : res (option (interaction F T * F)) :=
    let vs_o := tr_v s in
    let! max_axis := max_abs_axis (r_d r) in
    let ax := axis_prev max_axis in let ay := axis_next max_axis in let az := max_axis in
    let d := v3permute (r_d r) ax ay az in
    let sx := - vx d / vz d in let sy := - vy d / vz d in let sz := f1 / vz d in
    let vs := tmap (to_ray_space (r_o r) ax ay az sx sy) vs_o in
    let e0 := vx (t1 vs) * vy (t2 vs) - vy (t1 vs) * vx (t2 vs) in
    let e1 := vx (t2 vs) * vy (t0 vs) - vy (t2 vs) * vx (t0 vs) in
    let e2 := vx (t0 vs) * vy (t1 vs) - vy (t0 vs) * vx (t1 vs) in
    if ((e0 <? f0) || (e1 <? f0) || (e2 <? f0)) && ((e0 >? f0) || (e1 >? f0) || (e2 >? f0))
    then Ok None
    else
    let det := e0 + e1 + e2 in
    if det =? f0 then Ok None
    else
    let vs := tmap (fun p => mkV3 (vx p) (vy p) (vz p * sz)) vs in
    let t_scaled := vz (t0 vs) * e0 + vz (t1 vs) * e1 + vz (t2 vs) * e2 in
    if ((det <? f0) && ((t_scaled <? r_tmax r * det) || (f0 <=? t_scaled)))
       || ((det >? f0) && ((t_scaled <=? f0) || (r_tmax r * det <? t_scaled)))
    then Ok None
    else
    let b0 := e0 / det in
    let b1 := e1 / det in
    let b2 := e2 / det in
    let t := t_scaled / det in
    let max_x := max3 (vx (t0 vs)) (vx (t1 vs)) (vx (t2 vs)) in
    let max_y := max3 (vy (t0 vs)) (vy (t1 vs)) (vy (t2 vs)) in
    let max_z := max3 (vz (t0 vs)) (vz (t1 vs)) (vz (t2 vs)) in
    let delta_x := max_x * gamma (fofZ 5) in
    let delta_y := max_y * gamma (fofZ 5) in
    let delta_z := max_z * gamma (fofZ 3) in
    let delta_e := (gamma (fofZ 2) * max_x * max_y + max_x * delta_y + max_y * delta_x) * f2 in
    let max_e := max3 e0 e1 e2 in
    let delta_t := fofZ 3 * (gamma (fofZ 3) * max_e * max_z + max_z * delta_e + max_e * delta_z) / fabs det in
    if t <=? delta_t then Ok None
    else
    let p := bary vs_o b0 b1 b2 in
    let p_err := bary_err vs_o b0 b1 b2 in
    let uv := p2addf (p2addf (p2scale (t0 tr_uv) b0) (p2scale (t1 tr_uv) b1))
                     (p2scale (t2 tr_uv) b2) in
    let '(n, sn, dpdu, dpdv) := tr_frame s b0 b1 b2 in
    Ok (Some (mkI p p_err uv n sn dpdu dpdv (v3neg (r_d r)) None, t)).

  (** shape_triangle.rs:289-318 [sample] *)
  Definition tr_sample (s : triangle F) (u : P2 F) : interaction F T :=
    let vs_o := tr_v s in
    let sample_0 := fsqrt (px u) in
    let b0 := f1 - sample_0 in
    let b1 := py u * sample_0 in
    let b2 := f1 - b0 - b1 in
    let p := bary vs_o b0 b1 b2 in
    let p_err := bary_err vs_o b0 b1 b2 in
    let n := v3normalize (v3cross (v3sub (t1 vs_o) (t0 vs_o)) (v3sub (t2 vs_o) (t0 vs_o))) in
    let n := if tr_rev s then v3scale n (fofZ (-1)) else n in
    mkI p p_err (mkP2 f0 f0) n v3zero v3zero v3zero v3zero None.

  (** shape_triangle.rs:62-319 *)
  Definition triangle_shape (s : triangle F) : shape F T :=
    mkShape (tr_bbox s) (tr_area s) (tr_intersect_p s) (tr_intersect s) (fun u => Ok (tr_sample s u)).
End S.
