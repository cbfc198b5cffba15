(** * The order of the corners in the index lists of a mesh (C120) *)
From Coq Require Import ZArith Bool List Lia.
From Verif Require Import Model.Num Model.Vector Model.Triangle Props.VertexOrder.
Import ListNotations.
Local Open Scope Z_scope.

(** a list with its [k]-th entry changed by [f k] *)
Fixpoint each {A} (f : nat -> A -> A) (k : nat) (l : list A) : list A :=
  match l with [] => [] | x :: l => f k x :: each f (S k) l end.
Lemma each_nth {A} (f : nat -> A -> A) l : forall s k, nth_error (each f s l) k = option_map (f (s + k)%nat) (nth_error l k).
Proof.
  induction l as [|x l IH]; intros s [|k]; cbn [each nth_error option_map]; auto.
  - now rewrite Nat.add_0_r.
  - rewrite IH. do 2 f_equal. lia.
Qed.
Lemma each_length {A} (f : nat -> A -> A) l : forall s, length (each f s l) = length l.
Proof. induction l; intros; cbn; auto. Qed.

(** a triangle with its corners, and its vertex normals if it has any, in another order *)
Definition reorder_tr {F} (p : order) (t : triangle F) : triangle F :=
  mkTri (reorder p (tr_v t)) (option_map (reorder p) (tr_vn t)) (tr_rev t).

Lemma rmapm_each {B} (f f' : Z -> res B) (g : nat -> B -> B) n : forall s,
  (forall k, f' (Z.of_nat k) = match f (Z.of_nat k) with Ok t => Ok (g k t) | Panic => Panic | Timeout => Timeout end) ->
  rmapm f' (map Z.of_nat (seq s n)) =
  match rmapm f (map Z.of_nat (seq s n)) with Ok l => Ok (each g s l) | Panic => Panic | Timeout => Timeout end.
Proof.
  induction n as [|n IH]; intros s H; cbn [seq map rmapm]; auto.
  rewrite H. destruct (f (Z.of_nat s)); cbn [rbind]; auto. rewrite (IH (S s) H).
  destruct (rmapm f (map Z.of_nat (seq (S s) n))); cbn [rbind]; auto.
Qed.

Lemma idx_each {A} (f : nat -> A -> A) l k :
  idx (each f 0 l) (Z.of_nat k) = match idx l (Z.of_nat k) with Ok x => Ok (f k x) | Panic => Panic | Timeout => Timeout end.
Proof.
  unfold idx. destruct (Z.ltb_spec (Z.of_nat k) 0); [lia|]. rewrite Nat2Z.id, each_nth, Nat.add_0_l. now destruct (nth_error l k).
Qed.

(** the three entries that an index triple points at, in the order of the triple *)
Lemma pick_reorder {A B} (l : list A) (x : tri Z) (p : order) (k k' : tri A -> res B) :
  (forall y, k' (reorder p y) = k y) ->
  (let! a := idx l (t0 (reorder p x)) in let! b := idx l (t1 (reorder p x)) in let! c := idx l (t2 (reorder p x)) in k' (mk3 a b c)) =
  (let! a := idx l (t0 x) in let! b := idx l (t1 x) in let! c := idx l (t2 x) in k (mk3 a b c)).
Proof.
  intros H. assert (P : forall i, (exists a, idx l i = Ok a) \/ idx l i = Panic).
  { intros i. unfold idx. destruct (i <? 0); auto. destruct (nth_error l (Z.to_nat i)); eauto. }
  destruct (P (t0 x)) as [[a Ea]|Ea], (P (t1 x)) as [[b Eb]|Eb], (P (t2 x)) as [[c Ec]|Ec];
    destruct p; cbn [reorder t0 t1 t2]; rewrite Ea, ?Eb, ?Ec; cbn [rbind]; rewrite ?Ea, ?Eb, ?Ec; cbn [rbind]; try reflexivity;
    try (specialize (H (mk3 a b c)); exact H).
Qed.

(** ** C120: listing the corners of every face of a mesh in an order of its own, vertex normals likewise,
    gives the same triangles with their corners in these orders, or a panic in both cases. *)
Theorem C120_mesh : forall (F : Type) (vs : list (V3 F)) (is : list (tri Z)) vns vnis (p : nat -> order),
  new_triangle_mesh vs (each (fun k => reorder (p k)) 0 is) vns (option_map (each (fun k => reorder (p k)) 0) vnis) =
  match new_triangle_mesh vs is vns vnis with
  | Ok l => Ok (each (fun k => reorder_tr (p k)) 0 l)
  | Panic => Panic
  | Timeout => Timeout
  end.
Proof.
  intros F vs is vns vnis p. unfold new_triangle_mesh. cbv zeta. rewrite each_length.
  set (N := match vnis with Some l => l | None => [] end).
  assert (EN : match option_map (each (fun k => reorder (p k)) 0) vnis with Some l => l | None => [] end = each (fun k => reorder (p k)) 0 N)
    by (unfold N; destruct vnis; reflexivity).
  rewrite EN, each_length. set (V := match vns with Some l => l | None => [] end). clearbody N V. clear EN.
  apply (rmapm_each _ _ (fun k => reorder_tr (p k))). intros k. rewrite !idx_each.
  assert (NT : forall A (l : list A) i, idx l i <> Timeout).
  { intros A l i. unfold idx. destruct (i <? 0); [discriminate|]. destruct (nth_error _ _); discriminate. }
  destruct (idx is (Z.of_nat k)) as [vi| |] eqn:E; cbn [rbind]; auto.
  set (has := (Z.of_nat (length N) >=? Z.of_nat (length is))).
  (* the vertex normals of this face *)
  set (nrm := if has then let! vni := idx N (Z.of_nat k) in let! na := idx V (t0 vni) in let! nb := idx V (t1 vni) in
    let! nc := idx V (t2 vni) in Ok (Some (mk3 na nb nc)) else Ok None).
  match goal with |- context [if has then rbind (match idx N _ with Ok _ => _ | Panic => _ | Timeout => _ end) ?g else ?h] =>
    set (nrm' := if has then rbind (match idx N (Z.of_nat k) with Ok x => Ok (reorder (p k) x) | Panic => Panic | Timeout => Timeout end) g else h) end.
  assert (En : nrm' = match nrm with Ok m => Ok (option_map (reorder (p k)) m) | Panic => Panic | Timeout => Timeout end).
  { unfold nrm', nrm. destruct has; [|reflexivity]. destruct (idx N (Z.of_nat k)) as [x| |]; cbn [rbind]; auto.
    rewrite (pick_reorder V x (p k) (fun y => Ok (Some (reorder (p k) y))) (fun y => Ok (Some y))) by reflexivity.
    destruct (idx V (t0 x)), (idx V (t1 x)), (idx V (t2 x)); reflexivity. }
  clearbody nrm nrm'. subst nrm'.
  rewrite (pick_reorder vs vi (p k)
    (fun y => match nrm with Ok m => Ok (mkTri (reorder (p k) y) (option_map (reorder (p k)) m) false) | Panic => Panic | Timeout => Timeout end)
    (fun y => let! m := match nrm with Ok m => Ok (option_map (reorder (p k)) m) | Panic => Panic | Timeout => Timeout end in Ok (mkTri y m false)))
    by (intros y; destruct nrm; reflexivity).
  destruct (idx vs (t0 vi)); cbn [rbind]; auto. destruct (idx vs (t1 vi)); cbn [rbind]; auto. destruct (idx vs (t2 vi)); cbn [rbind]; auto.
  destruct nrm; reflexivity.
Qed.

(** two faces of a square, the second one turned over *)
Example C120_mesh_example : new_triangle_mesh [mkV3 0 0 0; mkV3 1 0 0; mkV3 1 1 0; mkV3 0 1 0]%Z [mk3 0 1 2; mk3 0 3 2]%Z None None =
  Ok [mkTri (mk3 (mkV3 0 0 0) (mkV3 1 0 0) (mkV3 1 1 0)) None false; mkTri (mk3 (mkV3 0 0 0) (mkV3 0 1 0) (mkV3 1 1 0)) None false]%Z /\
  new_triangle_mesh [mkV3 0 0 0; mkV3 1 0 0; mkV3 1 1 0; mkV3 0 1 0]%Z
    (each (fun k => reorder (match k with O => O012 | _ => O021 end)) 0 [mk3 0 1 2; mk3 0 3 2])%Z None None =
  Ok [mkTri (mk3 (mkV3 0 0 0) (mkV3 1 0 0) (mkV3 1 1 0)) None false; mkTri (mk3 (mkV3 0 0 0) (mkV3 1 1 0) (mkV3 0 1 0)) None false]%Z.
Proof. split; reflexivity. Qed.
