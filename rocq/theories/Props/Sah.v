(** * C95: the k-d tree is the greedy tree for the surface area cost *)
From Coq Require Import ZArith Reals List Bool Lia Lra Psatz Permutation Sorted Classical Wf_nat.
From Flocq Require Import Core.Raux.
From Verif Require Import Model.Num Model.NumX Model.Vector Model.BBox Model.Interaction Model.Shape Model.Sphere Model.Container Model.KdTree.
From Verif Require Import Spec.RVec Spec.BoxSpec Spec.KdSpec Spec.SahSpec Proofs.XBase Proofs.FLaws Proofs.KdBuild Proofs.KdWalk Proofs.SortProofs.
From Verif Require Import Props.Boxes Props.Containers.
Import ListNotations.
Local Open Scope R_scope.

Lemma Rltb_true x y : Rltb x y = true <-> x < y.
Proof. unfold Rltb. destruct (Rlt_dec x y); split; try discriminate; auto; contradiction. Qed.
Lemma Rltb_false x y : Rltb x y = false <-> y <= x.
Proof. unfold Rltb. destruct (Rlt_dec x y); split; try discriminate; auto; lra. Qed.
Lemma Rleb_true x y : Rleb x y = true <-> x <= y.
Proof. unfold Rleb. destruct (Rle_dec x y); split; try discriminate; auto; contradiction. Qed.
Lemma Rleb_false x y : Rleb x y = false <-> y < x.
Proof. unfold Rleb. destruct (Rle_dec x y); split; try discriminate; auto; lra. Qed.

(** ** the cost *)
Definition rord (lo hi : rv) : Prop := vx lo <= vx hi /\ vy lo <= vy hi /\ vz lo <= vz hi.

Lemma crd_get (p : rv) a : crd p a = v3get p a.
Proof. destruct a; reflexivity. Qed.
Lemma get_fin (p : rv) a : v3get (fin3 p) a = XFin (crd p a).
Proof. destruct a; reflexivity. Qed.
Lemma set_fin (p : rv) a x : v3set (fin3 p) a (XFin x) = fin3 (with_crd p a x).
Proof. destruct a; reflexivity. Qed.
Lemma crd_with (p : rv) a x b : crd (with_crd p a x) b = if (match a, b with AX, AX | AY, AY | AZ, AZ => true | _, _ => false end) then x else crd p b.
Proof. destruct a, b; reflexivity. Qed.

Lemma faces_nn lo hi : rord lo hi -> 0 <= faces lo hi.
Proof. intros (X & Y & Z). unfold faces, vsub. cbn [vx vy vz]. nra. Qed.

Lemma bonus_val (b : bool) : fsub (F := XR) f1 (if b then EMPTY_BONUS else f0) = XFin (if b then 1 / 2 else 1).
Proof. destruct b; unfold EMPTY_BONUS, fhalf, f0, f1, f2; cbn; [rewrite Req_bool_false by lra; cbn|]; f_equal; lra. Qed.

Lemma div_eq a b : b <> 0 -> fdiv (F := XR) (XFin a) (XFin b) = XFin (a / b).
Proof. apply xdiv_fin. Qed.

Lemma split_cost_val lo hi a t (nb na : nat) : 0 < faces lo hi ->
  split_cost (mkBB (fin3 lo) (fin3 hi)) a (XFin t) (Z.of_nat nb) (Z.of_nat na) = XFin (sah lo hi a t nb na).
Proof.
  intros Hf. unfold split_cost.
  assert (Ed : bbox_diagonal (mkBB (fin3 lo) (fin3 hi)) = fin3 (vsub hi lo)) by reflexivity.
  assert (Es : bbox_surface_area (mkBB (fin3 lo) (fin3 hi)) = XFin (faces lo hi)).
  { unfold bbox_surface_area. rewrite Ed. unfold f2, faces. cbn. f_equal. ring. }
  rewrite Ed, Es. cbn [bmin bmax].
  replace ((Z.of_nat nb =? 0) || (Z.of_nat na =? 0))%Z%bool with (Nat.eqb nb 0 || Nat.eqb na 0)%bool.
  2:{ f_equal; [destruct nb|destruct na]; reflexivity. }
  destruct (axis_others a) as [a1 a2] eqn:Eo. rewrite !get_fin. rewrite bonus_val.
  assert (Cb : fmul (F := XR) f2 (fadd (fmul (XFin (crd (vsub hi lo) a1)) (XFin (crd (vsub hi lo) a2)))
    (fmul (fadd (XFin (crd (vsub hi lo) a1)) (XFin (crd (vsub hi lo) a2))) (fsub (XFin t) (XFin (crd lo a))))) = XFin (faces lo (with_crd hi a t))).
  { unfold f2, faces. destruct a; cbn in Eo; injection Eo as <- <-; cbn; f_equal; ring. }
  assert (Ca : fmul (F := XR) f2 (fadd (fmul (XFin (crd (vsub hi lo) a1)) (XFin (crd (vsub hi lo) a2)))
    (fmul (fadd (XFin (crd (vsub hi lo) a1)) (XFin (crd (vsub hi lo) a2))) (fsub (XFin (crd hi a)) (XFin t)))) = XFin (faces (with_crd lo a t) hi)).
  { unfold f2, faces. destruct a; cbn in Eo; injection Eo as <- <-; cbn; f_equal; ring. }
  rewrite Cb, Ca, !div_eq by lra. unfold sah. rewrite !INR_IZR_INZ.
  unfold TRAV_COST, ISECT_COST, f1. cbn. f_equal; ring.
Qed.

Lemma split_cost_nan lo hi a t (nb na : Z) : rord lo hi -> crd lo a < t < crd hi a -> faces lo hi = 0 ->
  split_cost (mkBB (fin3 lo) (fin3 hi)) a (XFin t) nb na = XNaN.
Proof.
  intros (X & Y & Z) Ht Hf. unfold split_cost.
  assert (Ed : bbox_diagonal (mkBB (fin3 lo) (fin3 hi)) = fin3 (vsub hi lo)) by reflexivity.
  assert (Es : bbox_surface_area (mkBB (fin3 lo) (fin3 hi)) = XFin (faces lo hi)).
  { unfold bbox_surface_area. rewrite Ed. unfold f2, faces. cbn. f_equal. ring. }
  rewrite Ed, Es. cbn [bmin bmax].
  destruct (axis_others a) as [a1 a2] eqn:Eo. rewrite !get_fin. rewrite bonus_val, Hf.
  assert (E1 : crd (vsub hi lo) a1 = 0 /\ crd (vsub hi lo) a2 = 0).
  { unfold faces, vsub in Hf. cbn [vx vy vz] in Hf. destruct a; cbn in Eo; injection Eo as <- <-; cbn in *; split; nra. }
  destruct E1 as [-> ->].
  assert (N : forall u, fdiv (F := XR) (fmul (F := XR) f2 (fadd (F := XR) (fmul (F := XR) (XFin 0) (XFin 0))
     (fmul (F := XR) (fadd (F := XR) (XFin 0) (XFin 0)) (fsub (F := XR) u (XFin (crd lo a)))))) (XFin 0) = XNaN \/ True) by auto.
  clear N.
  assert (N : forall u v, fdiv (F := XR) (fmul (F := XR) f2 (fadd (F := XR) (fmul (F := XR) (XFin 0) (XFin 0))
     (fmul (F := XR) (fadd (F := XR) (XFin 0) (XFin 0)) (fsub (F := XR) (XFin u) (XFin v))))) (XFin 0) = XNaN).
  { intros u v. unfold f2. cbn. rewrite !Req_bool_true by ring. reflexivity. }
  rewrite !N. reflexivity.
Qed.

Lemma sah_bound lo hi a t (nb na : nat) : rord lo hi -> 0 < faces lo hi -> crd lo a < t < crd hi a ->
  sah lo hi a t nb na <= 1 + 80 * (INR nb + INR na).
Proof.
  intros (X & Y & Z) Hf Ht. unfold sah.
  assert (B : 0 <= faces lo (with_crd hi a t) / faces lo hi <= 1).
  { split; [apply Rle_mult_inv_pos; [apply faces_nn; unfold rord; destruct a; cbn in Ht |- *; lra|exact Hf]|].
    apply Rmult_le_reg_r with (faces lo hi); [exact Hf|]. unfold Rdiv. rewrite Rmult_assoc, Rinv_l by lra.
    unfold faces, vsub. destruct a; cbn in *; nra. }
  assert (A : 0 <= faces (with_crd lo a t) hi / faces lo hi <= 1).
  { split; [apply Rle_mult_inv_pos; [apply faces_nn; unfold rord; destruct a; cbn in Ht |- *; lra|exact Hf]|].
    apply Rmult_le_reg_r with (faces lo hi); [exact Hf|]. unfold Rdiv. rewrite Rmult_assoc, Rinv_l by lra.
    unfold faces, vsub. destruct a; cbn in *; nra. }
  pose proof (pos_INR nb). pose proof (pos_INR na).
  set (p := faces lo (with_crd hi a t) / faces lo hi) in *. set (q := faces (with_crd lo a t) hi / faces lo hi) in *.
  assert (p * INR nb + q * INR na <= INR nb + INR na) by nra.
  assert (0 <= p * INR nb + q * INR na) by nra.
  destruct (_ || _)%bool; lra.
Qed.

(** ** counting along a cut list *)
Section Cut.
  Context {A : Type}.
  Lemma cut_left (f p : A -> bool) l1 l2 : (forall e, In e l1 -> f e = true -> p e = true) ->
    (forall e, In e l2 -> f e = true -> p e = false) ->
    length (filter f l1) = length (filter (fun e => f e && p e) (l1 ++ l2)).
  Proof.
    intros H1 H2. rewrite filter_app_length.
    replace (length (filter (fun e => f e && p e) l2)) with 0%nat.
    2:{ clear H1. induction l2 as [|e l2 IH]; [reflexivity|]. cbn. destruct (f e) eqn:E; cbn.
        - rewrite (H2 e) by (auto; now left). apply IH. intros; apply H2; auto. now right.
        - apply IH. intros; apply H2; auto. now right. }
    clear H2. rewrite Nat.add_0_r. induction l1 as [|e l1 IH]; [reflexivity|]. cbn.
    destruct (f e) eqn:E; cbn.
    - rewrite (H1 e) by (auto; now left). cbn. f_equal. apply IH. intros; apply H1; auto. now right.
    - apply IH. intros; apply H1; auto. now right.
  Qed.
  Lemma cut_right (f p : A -> bool) l1 l2 : (forall e, In e l2 -> f e = true -> p e = true) ->
    (forall e, In e l1 -> f e = true -> p e = false) ->
    length (filter f l2) = length (filter (fun e => f e && p e) (l1 ++ l2)).
  Proof.
    intros H1 H2. rewrite (cut_left f p l2 l1 H1 H2).
    apply Permutation_length, Permutation_filter, Permutation_app_comm.
  Qed.
End Cut.

Section S.
  Context {T : Type}.
  Variable sh : T -> shape XR T.
  Variables blo bhi : T -> rv.
  Variable srt : list (bedge XR T) -> res (list (bedge XR T)).
  Hypothesis SO : sort_by_ok edge_cmp srt.
  Definition boxed (l : list T) : Prop := forall s, In s l -> sh_bbox (sh s) = mkBB (fin3 (blo s)) (fin3 (bhi s)) /\ rord (blo s) (bhi s).

  Let Perm : forall x y, srt x = Ok y -> Permutation x y.
  Proof. intros x; apply (SO x). Qed.

  Lemma boxed_ordered l : boxed l -> forall s, In s l -> box_ordered (sh_bbox (sh s)).
  Proof.
    intros H s Hs. destruct (H s Hs) as (-> & X & Y & Z). unfold box_ordered, v3fin, ffin, v3le, fin3. cbn.
    repeat split; now apply Rle_bool_true.
  Qed.

  (** the place of an edge *)
  Definition et (a : axis) (e : bedge XR T) : R := crd (if e_start e then blo (e_shape e) else bhi (e_shape e)) a.

  Lemma edge_place l a e : boxed l -> In e (shape_edges sh l a) -> e_t e = XFin (et a e) /\ In (e_shape e) l.
  Proof.
    intros Hl He. apply shape_edges_in in He as [Hs Et]. split; [|exact Hs]. rewrite Et.
    destruct (Hl _ Hs) as (-> & _). unfold et. destruct (e_start e); cbn [bmin bmax]; apply get_fin.
  Qed.

  (** the sorted edges *)
  Definition well_sorted a (edges : list (bedge XR T)) : Prop :=
    forall i j x y, nth_error edges i = Some x -> nth_error edges j = Some y -> (i < j)%nat ->
      et a x <= et a y /\ (et a x = et a y -> e_start x = false -> e_start y = false).

  Lemma sorted_edges l a : boxed l -> exists edges, srt (shape_edges sh l a) = Ok edges /\ Permutation (shape_edges sh l a) edges /\
    well_sorted a edges /\ (forall e, In e edges -> e_t e = XFin (et a e) /\ In (e_shape e) l).
  Proof.
    intros Hl. destruct (SO (shape_edges sh l a)) as (_ & _ & St). destruct St as (edges & Ee & Srt).
    { apply (edge_cmp_total (FL := XR_FLaws)). intros e He. apply (edge_place l a e Hl) in He as (-> & _). reflexivity. }
    exists edges. pose proof (Perm _ _ Ee) as P.
    assert (Pl : forall e, In e edges -> e_t e = XFin (et a e) /\ In (e_shape e) l).
    { intros e He. apply (edge_place l a e Hl). eapply Permutation_in; [apply Permutation_sym, P|exact He]. }
    repeat (split; [assumption|]). split; [|exact Pl].
    intros i j x y Hx Hy Hij. pose proof (sorted_before _ _ _ _ _ _ Srt Hx Hy Hij) as Q.
    unfold edge_cmp in Q. rewrite (proj1 (Pl x (nth_error_In _ _ Hx))), (proj1 (Pl y (nth_error_In _ _ Hy))) in Q.
    cbn [flt XR_FOps xlt] in Q.
    destruct (Rlt_bool (et a x) (et a y)) eqn:E1; rb.
    { split; [lra|]. intros; lra. }
    destruct (Rlt_bool (et a y) (et a x)) eqn:E2; [now destruct Q|]. rb.
    split; [lra|]. intros _ E. rewrite E in Q. destruct (e_start y); [now destruct Q|reflexivity].
  Qed.

  Lemma starts_list l a : map e_shape (filter (fun e => e_start e) (shape_edges sh l a)) = l.
  Proof. induction l as [|s l IH]; cbn; auto. f_equal. exact IH. Qed.
  Lemma ends_list l a : map e_shape (filter (fun e => negb (e_start e)) (shape_edges sh l a)) = l.
  Proof. induction l as [|s l IH]; cbn; auto. f_equal. exact IH. Qed.

  Lemma count_starts l a (p : R -> bool) : length (filter (fun e => e_start e && p (et a e)) (shape_edges sh l a)) = count (fun s => p (crd (blo s) a)) l.
  Proof. unfold count. induction l as [|s l IH]; cbn; auto. unfold et at 1. cbn. destruct (p _); cbn; auto. Qed.
  Lemma count_ends l a (p : R -> bool) : length (filter (fun e => negb (e_start e) && p (et a e)) (shape_edges sh l a)) = count (fun s => p (crd (bhi s) a)) l.
  Proof. unfold count. induction l as [|s l IH]; cbn; auto. unfold et at 1. cbn. destruct (p _); cbn; auto. Qed.

  (** cost at edge number [j] *)
  Definition nbel (edges : list (bedge XR T)) j : nat := length (filter (fun e => e_start e) (firstn j edges)).
  Definition nabo (edges : list (bedge XR T)) j : nat := length (filter (fun e => negb (e_start e)) (skipn (S j) edges)).
  Definition cst lo hi a edges j e : R := sah lo hi a (et a e) (nbel edges j) (nabo edges j).

  Lemma nth_cut {A} (l : list A) j e : nth_error l j = Some e -> l = firstn j l ++ e :: skipn (S j) l.
  Proof.
    revert j. induction l as [|x l IH]; intros [|j] H; try discriminate; cbn in *; [congruence|]. f_equal. now apply IH.
  Qed.
  Lemma nth_firstn {A} (l : list A) j i : (i < j)%nat -> nth_error (firstn j l) i = nth_error l i.
  Proof. revert l i. induction j as [|j IH]; intros [|x l] [|i] H; cbn; try lia; auto. apply IH. lia. Qed.
  Lemma nth_skipn {A} (l : list A) j i : nth_error (skipn j l) i = nth_error l (j + i).
  Proof. revert l. induction j as [|j IH]; intros [|x l]; cbn; auto. now destruct i. Qed.
  Lemma in_firstn_nth {A} (l : list A) j x : In x (firstn j l) -> exists i, (i < j)%nat /\ nth_error l i = Some x.
  Proof.
    intros H. apply In_nth_error in H as (i & Hi). assert (i < length (firstn j l))%nat by (apply nth_error_Some; congruence).
    rewrite firstn_length in H. assert (i < j)%nat by lia. exists i. split; auto. rewrite <- Hi. symmetry. now apply nth_firstn.
  Qed.
  Lemma in_skipn_nth {A} (l : list A) j x : In x (skipn j l) -> exists i, (j <= i)%nat /\ nth_error l i = Some x.
  Proof. intros H. apply In_nth_error in H as (i & Hi). rewrite nth_skipn in Hi. exists (j + i)%nat. split; [lia|exact Hi]. Qed.

  (** the candidates at a plane where shapes begin: the first such edge *)
  Lemma first_begin l a edges t : boxed l -> Permutation (shape_edges sh l a) edges -> well_sorted a edges -> at_begin blo l a t ->
    exists j e, nth_error edges j = Some e /\ et a e = t /\ nbel edges j = begin_before blo l a t /\ nabo edges j = end_from bhi l a t.
  Proof.
    intros Hl P W (s & Hs & Et).
    set (Q := fun j => exists e, nth_error edges j = Some e /\ e_start e = true /\ et a e = t).
    assert (HQ : exists j, Q j).
    { assert (I : In (mkEdge true (v3get (bmin (sh_bbox (sh s))) a) s) edges).
      { eapply Permutation_in; [apply P|]. apply in_flat_map. exists s. split; [auto|now left]. }
      apply In_nth_error in I as (j & Hj). exists j. eexists. split; [exact Hj|]. split; [reflexivity|exact Et]. }
    destruct (dec_inh_nat_subset_has_unique_least_element Q (fun j => classic (Q j)) HQ) as (j & ((e & He & Hst & Ht) & Least) & _).
    exists j, e. split; [exact He|]. split; [exact Ht|].
    assert (Before : forall x, In x (firstn j edges) -> et a x < t).
    { intros x Hx. apply in_firstn_nth in Hx as (i & Hi & Hx). destruct (W i j x e Hx He Hi) as [L E]. rewrite Ht in *.
      destruct L as [L|L]; [exact L|]. exfalso. destruct (e_start x) eqn:Ex.
      - assert (j <= i)%nat by (apply Least; exists x; auto). lia.
      - rewrite (E L eq_refl) in Hst. discriminate. }
    assert (After : forall x, In x (skipn j edges) -> t <= et a x).
    { intros x Hx. apply in_skipn_nth in Hx as (i & Hi & Hx). destruct (Nat.eq_dec i j) as [->|N].
      - rewrite He in Hx. injection Hx as <-. lra.
      - destruct (W j i e x He Hx) as [L _]; [lia|]. lra. }
    split.
    - unfold nbel, begin_before.
      rewrite (cut_left (fun e => e_start e) (fun e => Rltb (et a e) t) (firstn j edges) (skipn j edges)).
      + rewrite firstn_skipn. rewrite <- (Permutation_length (Permutation_filter _ _ _ P)). apply (count_starts l a (fun x => Rltb x t)).
      + intros x Hx _. apply Rltb_true, Before, Hx.
      + intros x Hx _. apply Rltb_false, After, Hx.
    - unfold nabo, end_from.
      rewrite (cut_right (fun e => negb (e_start e)) (fun e => Rleb t (et a e)) (firstn (S j) edges) (skipn (S j) edges)).
      + rewrite firstn_skipn. rewrite <- (Permutation_length (Permutation_filter _ _ _ P)). apply (count_ends l a (fun x => Rleb t x)).
      + intros x Hx _. apply Rleb_true, After. apply in_skipn_nth in Hx as (i & Hi & Hx).
        apply nth_error_In with (i - j)%nat. rewrite nth_skipn. rewrite <- Hx. f_equal. lia.
      + intros x Hx Hne. apply Rleb_false. apply in_firstn_nth in Hx as (i & Hi & Hx).
        destruct (Nat.eq_dec i j) as [->|N].
        * rewrite He in Hx. injection Hx as <-. rewrite Hst in Hne. discriminate.
        * apply Before. apply nth_error_In with i. rewrite nth_firstn; [exact Hx|lia].
  Qed.

  (** and where shapes end: the last such edge *)
  Lemma last_end l a edges t : boxed l -> Permutation (shape_edges sh l a) edges -> well_sorted a edges -> at_end bhi l a t ->
    exists j e, nth_error edges j = Some e /\ et a e = t /\ nbel edges j = begin_upto blo l a t /\ nabo edges j = end_after bhi l a t.
  Proof.
    intros Hl P W (s & Hs & Et). set (N := length edges).
    set (Q := fun k => exists e, (k < N)%nat /\ nth_error edges (N - 1 - k) = Some e /\ e_start e = false /\ et a e = t).
    assert (HQ : exists j, Q j).
    { assert (I : In (mkEdge false (v3get (bmax (sh_bbox (sh s))) a) s) edges).
      { eapply Permutation_in; [apply P|]. apply in_flat_map. exists s. split; [auto|right; now left]. }
      apply In_nth_error in I as (j & Hj). assert (j < N)%nat by (apply nth_error_Some; congruence).
      exists (N - 1 - j)%nat. eexists. split; [lia|]. replace (N - 1 - (N - 1 - j))%nat with j by lia.
      split; [exact Hj|]. split; [reflexivity|exact Et]. }
    destruct (dec_inh_nat_subset_has_unique_least_element Q (fun j => classic (Q j)) HQ) as (k & ((e & Hk & He & Hst & Ht) & Least) & _).
    set (j := (N - 1 - k)%nat) in *.
    exists j, e. split; [exact He|]. split; [exact Ht|].
    assert (After : forall x, In x (skipn (S j) edges) -> t < et a x).
    { intros x Hx. apply in_skipn_nth in Hx as (i & Hi & Hx). assert (i < N)%nat by (apply nth_error_Some; congruence).
      destruct (W j i e x He Hx) as [L E]; [lia|]. rewrite Ht in *.
      destruct L as [L|L]; [exact L|]. exfalso.
      assert (k <= N - 1 - i)%nat; [|lia]. apply Least. exists x. split; [lia|]. replace (N - 1 - (N - 1 - i))%nat with i by lia. auto. }
    assert (Before : forall x, In x (firstn (S j) edges) -> et a x <= t).
    { intros x Hx. apply in_firstn_nth in Hx as (i & Hi & Hx). destruct (Nat.eq_dec i j) as [->|Ne].
      - rewrite He in Hx. injection Hx as <-. lra.
      - destruct (W i j x e Hx He) as [L _]; [lia|]. lra. }
    split.
    - unfold nbel, begin_upto.
      rewrite (cut_left (fun e => e_start e) (fun e => Rleb (et a e) t) (firstn j edges) (skipn j edges)).
      + rewrite firstn_skipn. rewrite <- (Permutation_length (Permutation_filter _ _ _ P)). apply (count_starts l a (fun x => Rleb x t)).
      + intros x Hx _. apply Rleb_true, Before. apply in_firstn_nth in Hx as (i & Hi & Hx).
        apply nth_error_In with i. rewrite nth_firstn; [exact Hx|lia].
      + intros x Hx Hne. apply Rleb_false. apply in_skipn_nth in Hx as (i & Hi & Hx).
        destruct (Nat.eq_dec i j) as [->|Ne].
        * rewrite He in Hx. injection Hx as <-. rewrite Hst in Hne. discriminate.
        * apply After. apply nth_error_In with (i - S j)%nat. rewrite nth_skipn. rewrite <- Hx. f_equal. lia.
    - unfold nabo, end_after.
      rewrite (cut_right (fun e => negb (e_start e)) (fun e => Rltb t (et a e)) (firstn (S j) edges) (skipn (S j) edges)).
      + rewrite firstn_skipn. rewrite <- (Permutation_length (Permutation_filter _ _ _ P)). apply (count_ends l a (fun x => Rltb t x)).
      + intros x Hx _. apply Rltb_true, After, Hx.
      + intros x Hx _. apply Rltb_false, Before, Hx.
  Qed.

  (** what the scan has found after the edges [pre] *)
  Definition found lo hi a (edges pre : list (bedge XR T)) (st : scan (F := XR)) : Prop :=
    match sc_best st with
    | None => sc_cost st = fmaxv /\ forall j e, nth_error pre j = Some e -> ~ inside lo hi a (et a e)
    | Some b => exists j e, b = Z.of_nat j /\ nth_error pre j = Some e /\ inside lo hi a (et a e) /\
        sc_cost st = XFin (cst lo hi a edges j e) /\
        forall j' e', nth_error pre j' = Some e' -> inside lo hi a (et a e') -> cst lo hi a edges j e <= cst lo hi a edges j' e'
    end.

  Lemma scan_found m lo hi a (edges : list (bedge XR T)) n : rord lo hi ->
    (forall e, In e edges -> e_t e = XFin (et a e)) ->
    (length (filter (fun e => e_start e) edges) = n)%nat ->
    (length (filter (fun e => negb (e_start e)) edges) = n)%nat -> (Z.of_nat n <= usize_max)%Z ->
    forall suf pre st, edges = pre ++ suf ->
      sc_below st = Z.of_nat (length (filter (fun e => e_start e) pre)) ->
      sc_above st = (Z.of_nat n - Z.of_nat (length (filter (fun e => negb (e_start e)) pre)))%Z ->
      found lo hi a edges pre st ->
      exists st', rfold (scan_step m (mkBB (fin3 lo) (fin3 hi)) a edges) (map Z.of_nat (seq (length pre) (length suf))) st = Ok st' /\
        found lo hi a edges edges st'.
  Proof.
    intros Ho Hpl Hs He Hn. induction suf as [|e suf IH]; intros pre st E Eb Ea Hb.
    { cbn. rewrite app_nil_r in E. subst pre. eauto. }
    cbn [length seq map rfold]. unfold scan_step at 1.
    assert (Ix : idx edges (Z.of_nat (length pre)) = Ok e) by (rewrite E; now apply idx_mid).
    rewrite Ix. cbn [rbind].
    assert (Ie : In e edges) by (rewrite E; apply in_or_app; right; now left).
    assert (Cs := Hs). assert (Ce := He). rewrite E, filter_app_length in Cs, Ce. cbn [filter] in Cs, Ce.
    assert (HA : exists na, (if e_start e then Ok (sc_above st) else usize_of m (sc_above st - 1)) = Ok na /\
      na = (Z.of_nat n - Z.of_nat (length (filter (fun e => negb (e_start e)) (pre ++ [e]))))%Z).
    { rewrite filter_app_length. cbn [filter]. destruct (e_start e); cbn [negb length] in *.
      - exists (sc_above st). split; [reflexivity|lia].
      - exists (sc_above st - 1)%Z. split; [|lia]. unfold usize_of, in_rangeb.
        replace (0 <=? sc_above st - 1)%Z with true by (symmetry; apply Z.leb_le; lia).
        replace (sc_above st - 1 <=? usize_max)%Z with true by (symmetry; apply Z.leb_le; lia). reflexivity. }
    destruct HA as (na & -> & Hna). cbn [rbind].
    assert (HB : exists nb, (if e_start e then usize_of m (sc_below st + 1) else Ok (sc_below st)) = Ok nb /\
      nb = Z.of_nat (length (filter (fun e => e_start e) (pre ++ [e])))).
    { rewrite filter_app_length. cbn [filter]. destruct (e_start e); cbn [negb length] in *.
      - exists (sc_below st + 1)%Z. split; [|lia]. unfold usize_of, in_rangeb.
        replace (0 <=? sc_below st + 1)%Z with true by (symmetry; apply Z.leb_le; lia).
        replace (sc_below st + 1 <=? usize_max)%Z with true by (symmetry; apply Z.leb_le; lia). reflexivity.
      - exists (sc_below st). split; [reflexivity|lia]. }
    destruct HB as (nb & -> & Hnb).
    (* the counts at this edge *)
    assert (Cb : sc_below st = Z.of_nat (nbel edges (length pre))).
    { rewrite Eb. unfold nbel. rewrite E, firstn_app, Nat.sub_diag, firstn_all. cbn [firstn]. now rewrite app_nil_r. }
    assert (Ca : na = Z.of_nat (nabo edges (length pre))).
    { rewrite Hna. unfold nabo. rewrite <- He at 1. rewrite E.
      replace (pre ++ e :: suf) with ((pre ++ [e]) ++ suf) at 1 2 by now rewrite <- app_assoc.
      replace (S (length pre)) with (length (pre ++ [e])) by (rewrite app_length; cbn; lia).
      rewrite skipn_app, skipn_all, Nat.sub_diag. cbn [skipn app]. rewrite filter_app_length. lia. }
    set (cb := if _ && _ then _ else _).
    assert (Hcb : found lo hi a edges (pre ++ [e]) (mkScan nb na (fst cb) (snd cb))).
    { assert (Old : forall j x, nth_error (pre ++ [e]) j = Some x -> nth_error pre j = Some x \/ (j = length pre /\ x = e)).
      { intros j x Hx. destruct (Nat.lt_ge_cases j (length pre)) as [Q|Q].
        - rewrite nth_error_app1 in Hx by exact Q. auto.
        - rewrite nth_error_app2 in Hx by exact Q. destruct (j - length pre)%nat as [|q] eqn:Eq.
          + right. cbn in Hx. split; [lia|congruence].
          + destruct q; discriminate. }
      assert (New : nth_error (pre ++ [e]) (length pre) = Some e) by (rewrite nth_error_app2, Nat.sub_diag by lia; reflexivity).
      assert (Keep : forall j x, nth_error pre j = Some x -> nth_error (pre ++ [e]) j = Some x).
      { intros j x Hx. rewrite nth_error_app1; [exact Hx|]. apply nth_error_Some. congruence. }
      (* keeping what was found *)
      assert (Skip : (inside lo hi a (et a e) -> exists c, sc_cost st = XFin c /\ c <= cst lo hi a edges (length pre) e) ->
        (sc_best st = None -> ~ inside lo hi a (et a e)) ->
        found lo hi a edges (pre ++ [e]) (mkScan nb na (sc_cost st) (sc_best st))).
      { intros H H'. unfold found in *. cbn [sc_best sc_cost]. destruct (sc_best st) as [b|].
        - destruct Hb as (j & x & -> & Hj & Hi & Hc & Hm). exists j, x. repeat (split; [auto|]).
          intros j' x' Hj' Hi'. destruct (Old j' x' Hj') as [Q|[-> ->]]; [now apply Hm|].
          destruct (H Hi') as (c & Ec & Hle). rewrite Ec in Hc. assert (c = cst lo hi a edges j x) by congruence. lra.
        - destruct Hb as [Hc Hno]. split; [exact Hc|]. intros j x Hx. destruct (Old j x Hx) as [Q|[-> ->]]; [now apply (Hno j)|auto]. }
      unfold cb. cbn [bmin bmax]. rewrite !get_fin, (Hpl e Ie). cbn [flt XR_FOps xlt].
      destruct (Rlt_bool (crd lo a) (et a e) && Rlt_bool (et a e) (crd hi a)) eqn:Ein.
      2:{ cbn [fst snd]. assert (Hno : ~ inside lo hi a (et a e)).
          { intros [[Q1 Q2] _]. apply andb_false_iff in Ein as [Ein|Ein]; rb; lra. }
          apply Skip; [intros Q; contradiction|auto]. }
      apply andb_true_iff in Ein as [I1 I2]. rb.
      rewrite Cb, Ca.
      destruct (Req_dec (faces lo hi) 0) as [F0|F0].
      { rewrite split_cost_nan by auto. cbn [xlt fst snd]. apply Skip; intros Q; [exfalso; destruct Q as [_ Q]; lra|]. intros [_ Q']. lra. }
      assert (Fp : 0 < faces lo hi) by (pose proof (faces_nn lo hi Ho); lra).
      assert (Hin : inside lo hi a (et a e)) by (split; [split; assumption|exact Fp]).
      rewrite split_cost_val by exact Fp. fold (cst lo hi a edges (length pre) e).
      destruct (xlt (XFin (cst lo hi a edges (length pre) e)) (sc_cost st)) eqn:Elt; cbn [fst snd].
      - unfold found. cbn [sc_best sc_cost]. exists (length pre), e. repeat (split; [auto|]).
        intros j' x' Hj' Hi'. destruct (Old j' x' Hj') as [Q|[-> ->]]; [|lra].
        unfold found in Hb. destruct (sc_best st) as [b|].
        + destruct Hb as (j & x & -> & Hj & Hi & Hc & Hm). specialize (Hm j' x' Q Hi'). rewrite Hc in Elt. cbn in Elt. rb. lra.
        + destruct Hb as [_ Hno]. exfalso. now apply (Hno j' x').
      - apply Skip.
        + intros _. unfold found in Hb. destruct (sc_best st) as [b|].
          * destruct Hb as (j & x & -> & Hj & Hi & Hc & Hm). rewrite Hc in Elt |- *. cbn in Elt. rb. eexists. split; [reflexivity|]. exact Elt.
          * exfalso. destruct Hb as [Hc _]. rewrite Hc in Elt. cbn [fmaxv XR_FOps xlt] in Elt. rb.
            assert (Hsb : cst lo hi a edges (length pre) e <= 1 + 80 * (INR (nbel edges (length pre)) + INR (nabo edges (length pre)))) by (apply sah_bound; auto).
            assert (B1 : (nbel edges (length pre) <= n)%nat).
            { unfold nbel. rewrite <- Hs. rewrite <- (firstn_skipn (length pre) edges) at 2. rewrite filter_app_length. lia. }
            assert (B2 : (nabo edges (length pre) <= n)%nat).
            { unfold nabo. rewrite <- He. rewrite <- (firstn_skipn (S (length pre)) edges) at 2. rewrite filter_app_length. lia. }
            apply le_INR in B1, B2.
            assert (B3 : INR n <= IZR (2 ^ 64)).
            { rewrite INR_IZR_INZ. apply IZR_le. unfold usize_max in Hn. lia. }
            assert (IZR (2 ^ 64) * 1000 <= 16777215 * IZR (2 ^ 104)).
            { rewrite <- (mult_IZR _ 1000), <- (mult_IZR 16777215). apply IZR_le. vm_compute. discriminate. }
            assert (1 <= IZR (2 ^ 64)) by (apply IZR_le; vm_compute; discriminate). lra.
        + intros Hnone. exfalso. unfold found in Hb. rewrite Hnone in Hb. destruct Hb as [Hc _]. rewrite Hc in Elt. cbn [fmaxv XR_FOps xlt] in Elt. rb.
          assert (Hsb : cst lo hi a edges (length pre) e <= 1 + 80 * (INR (nbel edges (length pre)) + INR (nabo edges (length pre)))) by (apply sah_bound; auto).
          assert (B1 : (nbel edges (length pre) <= n)%nat).
          { unfold nbel. rewrite <- Hs. rewrite <- (firstn_skipn (length pre) edges) at 2. rewrite filter_app_length. lia. }
          assert (B2 : (nabo edges (length pre) <= n)%nat).
          { unfold nabo. rewrite <- He. rewrite <- (firstn_skipn (S (length pre)) edges) at 2. rewrite filter_app_length. lia. }
          apply le_INR in B1, B2.
          assert (B3 : INR n <= IZR (2 ^ 64)).
          { rewrite INR_IZR_INZ. apply IZR_le. unfold usize_max in Hn. lia. }
          assert (IZR (2 ^ 64) * 1000 <= 16777215 * IZR (2 ^ 104)).
          { rewrite <- (mult_IZR _ 1000), <- (mult_IZR 16777215). apply IZR_le. vm_compute. discriminate. }
          assert (1 <= IZR (2 ^ 64)) by (apply IZR_le; vm_compute; discriminate). lra. }
    destruct cb as [bc be]. cbn [rbind fst snd] in *.
    destruct (IH (pre ++ [e]) (mkScan nb na bc be)) as (st' & Est & Hst); auto.
    { now rewrite <- app_assoc. }
    exists st'. split; [|exact Hst]. rewrite <- Est. rewrite app_length. cbn [length].
    now rewrite Nat.add_1_r.
  Qed.

  (** ** one node *)
  Fixpoint nxt (k : nat) (a : axis) : axis := match k with O => a | S k => nxt k (axis_next a) end.

  Lemma no_split lo hi l a edges : boxed l -> Permutation (shape_edges sh l a) edges -> well_sorted a edges ->
    (forall j e, nth_error edges j = Some e -> ~ inside lo hi a (et a e)) -> ~ can_split blo bhi lo hi l a.
  Proof.
    intros Hl P W H (t & Hin & [B|B]).
    - destruct (first_begin l a edges t Hl P W B) as (j & e & Hj & Et & _). apply (H j e Hj). now rewrite Et.
    - destruct (last_end l a edges t Hl P W B) as (j & e & Hj & Et & _). apply (H j e Hj). now rewrite Et.
  Qed.

  Lemma try_axes_best m lo hi l k : boxed l -> rord lo hi -> (Z.of_nat (length l) <= usize_max)%Z ->
    forall a, exists c best, try_axes sh srt m k l (mkBB (fin3 lo) (fin3 hi)) a = Ok (c, best) /\
      match best with
      | None => forall q, (q < k)%nat -> ~ can_split blo bhi lo hi l (nxt q a)
      | Some (a', i, edges) => exists j e q, i = Z.of_nat j /\ srt (shape_edges sh l a') = Ok edges /\ well_sorted a' edges /\
          nth_error edges j = Some e /\ e_t e = XFin (et a' e) /\ In (e_shape e) l /\ inside lo hi a' (et a' e) /\ c = XFin (cst lo hi a' edges j e) /\
          (forall j' e', nth_error edges j' = Some e' -> inside lo hi a' (et a' e') -> cst lo hi a' edges j e <= cst lo hi a' edges j' e') /\
          (q < k)%nat /\ a' = nxt q a /\ (forall q', (q' < q)%nat -> ~ can_split blo bhi lo hi l (nxt q' a))
      end.
  Proof.
    intros Hl Ho Hn. induction k as [|k IH]; intros a; cbn [try_axes].
    { exists fmaxv, None. split; [reflexivity|]. intros; lia. }
    destruct (sorted_edges l a Hl) as (edges & Ee & P & W & Pl). rewrite Ee. cbn [rbind].
    assert (EL : length edges = (2 * length l)%nat) by (rewrite <- (Permutation_length P); apply edges_length).
    destruct (scan_found m lo hi a edges (length l) Ho) with (suf := edges) (pre := @nil (bedge XR T))
      (st := mkScan (F := XR) 0 (Z.of_nat (length l)) fmaxv None) as (st & Est & Hst); auto.
    { intros e He. now apply Pl. }
    { rewrite <- (Permutation_length (Permutation_filter _ _ _ P)). apply edges_starts. }
    { rewrite <- (Permutation_length (Permutation_filter _ _ _ P)). apply edges_ends. }
    { cbn. lia. }
    { unfold found. cbn [sc_best sc_cost]. split; [reflexivity|]. intros [|j] e H; discriminate. }
    cbn [length] in Est. rewrite EL in Est. rewrite Est. cbn [rbind]. unfold found in Hst.
    destruct (sc_best st) as [b|].
    - destruct Hst as (j & e & -> & Hj & Hi & Hc & Hm). do 2 eexists. split; [reflexivity|]. cbn iota.
      destruct (Pl e (nth_error_In _ _ Hj)) as [Pe Pi].
      exists j, e, 0%nat. repeat (split; [first [assumption|reflexivity|lia]|]). intros; lia.
    - destruct Hst as [_ Hno]. pose proof (no_split lo hi l a edges Hl P W Hno) as Ns.
      destruct (IH (axis_next a)) as (c & best & -> & Hb). exists c, best. split; [reflexivity|].
      destruct best as [[[a' i] es]|].
      + destruct Hb as (j & e & q & H1 & H2 & H3 & H4 & H5 & H6 & H7 & H8 & H9 & H10 & H11 & H12).
        exists j, e, (S q). repeat (split; [first [assumption|lia]|]). intros [|q'] Hq; [exact Ns|]. apply H12. lia.
      + intros [|q] Hq; [exact Ns|]. apply Hb. lia.
  Qed.

  Lemma below_val (edges : list (bedge XR T)) j : length (shapes_below edges (Z.of_nat j)) = nbel edges j.
  Proof. unfold shapes_below, nbel. now rewrite map_length, Nat2Z.id. Qed.
  Lemma above_val (edges : list (bedge XR T)) j : length (shapes_above edges (Z.of_nat j)) = nabo edges j.
  Proof. unfold shapes_above, nabo. rewrite map_length. do 3 f_equal. lia. Qed.

  Lemma split_shares l a edges j e : boxed l -> srt (shape_edges sh l a) = Ok edges -> well_sorted a edges -> nth_error edges j = Some e ->
    e_t e = XFin (et a e) ->
    shares blo bhi l a (et a e) (shapes_below edges (Z.of_nat j)) (shapes_above edges (Z.of_nat j)).
  Proof.
    intros Hl Ee W Hj Ht. pose proof (Perm _ _ Ee) as P. split; [|split].
    - exists (map e_shape (filter (fun e => e_start e) (skipn j edges))). split; [|split].
      + rewrite <- (starts_list l a). unfold shapes_below. rewrite Nat2Z.id, <- map_app, <- filter_app, firstn_skipn.
        apply Permutation_map, Permutation_filter, P.
      + apply Forall_forall. intros s Hs. unfold shapes_below in Hs. rewrite Nat2Z.id in Hs. apply in_map_iff in Hs as (x & <- & Hx).
        apply filter_In in Hx as [Hx Sx]. apply in_firstn_nth in Hx as (i & Hi & Hx).
        destruct (W i j x e Hx Hj Hi) as [L _]. unfold et in L at 1. now rewrite Sx in L.
      + apply Forall_forall. intros s Hs. apply in_map_iff in Hs as (x & <- & Hx).
        apply filter_In in Hx as [Hx Sx]. apply in_skipn_nth in Hx as (i & Hi & Hx).
        replace (crd (blo (e_shape x)) a) with (et a x) by (unfold et; now rewrite Sx).
        destruct (Nat.eq_dec i j) as [->|N]; [rewrite Hj in Hx; injection Hx as <-; lra|].
        destruct (W j i e x Hj Hx) as [L _]; [lia|exact L].
    - replace (shapes_above edges (Z.of_nat j)) with (map e_shape (filter (fun e => negb (e_start e)) (skipn (S j) edges))).
      2:{ unfold shapes_above. do 3 f_equal. lia. }
      exists (map e_shape (filter (fun e => negb (e_start e)) (firstn (S j) edges))). split; [|split].
      + etransitivity; [|apply Permutation_app_comm].
        rewrite <- (ends_list l a), <- map_app, <- filter_app, firstn_skipn. apply Permutation_map, Permutation_filter, P.
      + apply Forall_forall. intros s Hs. apply in_map_iff in Hs as (x & <- & Hx).
        apply filter_In in Hx as [Hx Sx]. apply in_skipn_nth in Hx as (i & Hi & Hx). apply negb_true_iff in Sx.
        destruct (W j i e x Hj Hx) as [L _]; [lia|]. unfold et in L at 2. now rewrite Sx in L.
      + apply Forall_forall. intros s Hs. apply in_map_iff in Hs as (x & <- & Hx).
        apply filter_In in Hx as [Hx Sx]. apply in_firstn_nth in Hx as (i & Hi & Hx). apply negb_true_iff in Sx.
        replace (crd (bhi (e_shape x)) a) with (et a x) by (unfold et; now rewrite Sx).
        destruct (Nat.eq_dec i j) as [->|N]; [rewrite Hj in Hx; injection Hx as <-; lra|].
        destruct (W i j x e Hx Hj) as [L _]; [lia|exact L].
    - intros s Hs. destruct (classify (FL := XR_FLaws) sh srt SO l a edges (Z.of_nat j) e s) as (C & _); auto; [|lia|].
      + apply boxed_ordered, Hl.
      + now rewrite Nat2Z.id.
  Qed.

  Lemma max_extent_longest lo hi : exists a, bbox_max_extent (mkBB (fin3 lo) (fin3 hi)) = Ok a /\ longest lo hi a.
  Proof.
    unfold bbox_max_extent. change (bbox_diagonal (mkBB (fin3 lo) (fin3 hi))) with (fin3 (vsub hi lo)).
    unfold longest. generalize (vsub hi lo). intros v. unfold largest_axis, fin3. cbn.
    destruct (Rle_bool (vy v) (vx v)) eqn:E1, (Rle_bool (vz v) (vx v)) eqn:E2, (Rle_bool (vz v) (vy v)) eqn:E3; rb;
      try (exfalso; lra); (eexists; split; [reflexivity|]; intros []; cbn; lra).
  Qed.

  Lemma best_of lo hi l a0 a edges j e q : boxed l -> longest lo hi a0 -> srt (shape_edges sh l a) = Ok edges -> well_sorted a edges ->
    nth_error edges j = Some e -> e_t e = XFin (et a e) -> In (e_shape e) l -> inside lo hi a (et a e) ->
    (forall j' e', nth_error edges j' = Some e' -> inside lo hi a (et a e') -> cst lo hi a edges j e <= cst lo hi a edges j' e') ->
    (q < 3)%nat -> a = nxt q a0 -> (forall q', (q' < q)%nat -> ~ can_split blo bhi lo hi l (nxt q' a0)) ->
    best_split blo bhi lo hi l a (et a e) (shapes_below edges (Z.of_nat j)) (shapes_above edges (Z.of_nat j)).
  Proof.
    intros Hl Hlong Ee W Hj Ht Hin Hi Hm Hq Ea Hno. pose proof (Perm _ _ Ee) as P.
    split; [exact Hi|]. split.
    { unfold et. destruct (e_start e); [left|right]; exists (e_shape e); auto. }
    split; [apply (split_shares l a edges j e); auto|]. split.
    { exists a0. split; [exact Hlong|]. destruct q as [|[|[|q]]]; [left; exact Ea| | |lia].
      - right; left. split; [exact Ea|]. apply (Hno 0%nat). lia.
      - right; right. split; [exact Ea|]. split; [apply (Hno 0%nat); lia|apply (Hno 1%nat); lia]. }
    rewrite below_val, above_val. fold (cst lo hi a edges j e). split; intros t' Hin' Hb.
    - destruct (first_begin l a edges t' Hl P W Hb) as (j' & e' & Hj' & Et & <- & <-). rewrite <- Et.
      apply Hm; [exact Hj'|now rewrite Et].
    - destruct (last_end l a edges t' Hl P W Hb) as (j' & e' & Hj' & Et & <- & <-). rewrite <- Et.
      apply Hm; [exact Hj'|now rewrite Et].
  Qed.

  Lemma listed_leaf (l : list T) : listed (new_leaf (F := XR) l) = Some l.
  Proof. destruct l as [|x [|y l]]; reflexivity. Qed.

  Lemma rord_below lo hi a t : rord lo hi -> crd lo a < t < crd hi a -> rord lo (with_crd hi a t).
  Proof. intros (X & Y & Z) H. unfold rord. destruct a; cbn in H |- *; lra. Qed.
  Lemma rord_above lo hi a t : rord lo hi -> crd lo a < t < crd hi a -> rord (with_crd lo a t) hi.
  Proof. intros (X & Y & Z) H. unfold rord. destruct a; cbn in H |- *; lra. Qed.

  Lemma build_greedy m depth : forall nodes l lo hi bad nodes', boxed l -> rord lo hi -> (Z.of_nat (length l) <= usize_max)%Z ->
    kd_build sh srt m depth nodes l (mkBB (fin3 lo) (fin3 hi)) bad = Ok nodes' ->
    exists k, (forall N i, stored N i k -> greedy blo bhi N i depth bad lo hi l) /\
      nodes' = nodes ++ flatten (Z.of_nat (length nodes)) k.
  Proof.
    induction depth as [|depth IH]; intros nodes l lo hi bad nodes' Hl Ho Hn; cbn [kd_build].
    { intros H. exists (KLeaf l). split; [|cbn [flatten]; congruence]. intros N i St. apply stored_leaf in St.
      eapply greedy_leaf; [exact St|apply listed_leaf|]. auto. }
    assert (Lf : forall n' : list (node XR T),
      ((length l <= 8)%nat \/ S depth = 0%nat \/ (forall a, ~ can_split blo bhi lo hi l a) \/
       (exists a t below above, best_split blo bhi lo hi l a t below above /\
          too_dear bad (sah lo hi a t (length below) (length above)) (length l))) ->
      Ok (nodes ++ [new_leaf l]) = Ok n' ->
      exists k, (forall N i, stored N i k -> greedy blo bhi N i (S depth) bad lo hi l) /\ n' = nodes ++ flatten (Z.of_nat (length nodes)) k).
    { intros n' W H. exists (KLeaf l). split; [|cbn [flatten]; congruence]. intros N i St. apply stored_leaf in St.
      eapply greedy_leaf; [exact St|apply listed_leaf|exact W]. }
    destruct (Z.of_nat (length l) <=? MAX_SHAPES_IN_NODE)%Z eqn:E8.
    { apply Lf. left. apply Z.leb_le in E8. unfold MAX_SHAPES_IN_NODE in E8. lia. }
    apply Z.leb_gt in E8. unfold MAX_SHAPES_IN_NODE in E8.
    destruct (max_extent_longest lo hi) as (a0 & -> & Hlong). cbn [rbind].
    destruct (try_axes_best m lo hi l 3 Hl Ho Hn a0) as (c & best & -> & Hb). cbn [rbind].
    destruct best as [[[a i] edges]|].
    2:{ rewrite orb_true_r. cbn [orb]. apply Lf. right; right; left.
        intros b.
        assert (Q : exists q, (q < 3)%nat /\ b = nxt q a0).
        { destruct a0, b; first [exists 0%nat; split; [lia|reflexivity]|exists 1%nat; split; [lia|reflexivity]|exists 2%nat; split; [lia|reflexivity]]. }
        destruct Q as (q & Hq & ->). now apply Hb. }
    destruct Hb as (j & e & q & -> & Ee & W & Hj & Ht & Hin & Hi & -> & Hm & Hq & Ea & Hno).
    pose proof (best_of lo hi l a0 a edges j e q Hl Hlong Ee W Hj Ht Hin Hi Hm Hq Ea Hno) as Bs.
    assert (Ec : cst lo hi a edges j e = sah lo hi a (et a e) (length (shapes_below edges (Z.of_nat j))) (length (shapes_above edges (Z.of_nat j))))
      by (unfold cst; now rewrite below_val, above_val).
    assert (Eold : fmul (F := XR) ISECT_COST (fofZ (Z.of_nat (length l))) = XFin (flat_cost (length l))).
    { unfold ISECT_COST, flat_cost. rewrite INR_IZR_INZ. reflexivity. }
    rewrite Eold.
    set (C := cst lo hi a edges j e) in *.
    assert (Ebad : (if flt (F := XR) (XFin (flat_cost (length l))) (XFin C) then (bad + 1)%Z else bad) = bad_after bad C (length l)).
    { unfold bad_after. cbn. destruct (Rlt_dec _ _) as [Q|Q].
      - now rewrite Rlt_bool_true.
      - rewrite Rlt_bool_false by lra. reflexivity. }
    rewrite Ebad.
    assert (E4 : flt (F := XR) (fmul (fofZ 4) (XFin (flat_cost (length l)))) (XFin C) = Rlt_bool (4 * flat_cost (length l)) C) by reflexivity.
    rewrite E4.
    destruct (_ || _ || _)%bool eqn:Edear.
    { apply Lf. right; right; right. exists a, (et a e), (shapes_below edges (Z.of_nat j)), (shapes_above edges (Z.of_nat j)).
      split; [exact Bs|]. rewrite <- Ec. unfold too_dear. rewrite orb_false_r in Edear. apply orb_true_iff in Edear as [Q|Q].
      - left. apply andb_true_iff in Q as [Q1 Q2]. rb. apply Z.ltb_lt in Q2. unfold MAX_SHAPES_IN_NODE in Q2. split; [exact Q1|lia].
      - right. now apply Z.eqb_eq. }
    assert (Ndear : ~ too_dear bad C (length l)).
    { intros [[Q1 Q2]|Q].
      - rewrite Rlt_bool_true in Edear by exact Q1. replace (Z.of_nat (length l) <? MAX_SHAPES_IN_NODE * 2)%Z with true in Edear; [discriminate|].
        symmetry. apply Z.ltb_lt. unfold MAX_SHAPES_IN_NODE. lia.
      - rewrite Q, orb_true_r in Edear. discriminate. }
    unfold idx at 1. replace (Z.of_nat j <? 0)%Z with false by (symmetry; apply Z.ltb_ge; lia). rewrite Nat2Z.id, Hj. cbn [rbind].
    rewrite Ht. cbn [bmin bmax]. rewrite !set_fin.
    destruct Hi as [Hi Hf].
    assert (Bb : boxed (shapes_below edges (Z.of_nat j))) by (intros s Hs; apply Hl; eapply (shapes_below_in sh srt Perm); eauto).
    assert (Ba : boxed (shapes_above edges (Z.of_nat j))) by (intros s Hs; apply Hl; eapply (shapes_above_in sh srt Perm); eauto).
    pose proof (below_length sh srt Perm l a edges (Z.of_nat j) Ee) as L1.
    pose proof (above_length sh srt Perm l a edges (Z.of_nat j) Ee) as L2.
    destruct (kd_build sh srt m depth (nodes ++ [NEmpty]) _ _ _) as [n1| |] eqn:E1; cbn [rbind]; try discriminate.
    apply IH in E1 as (kb & Gb & ->); [|exact Bb|now apply rord_below|lia].
    set (L := Z.of_nat (length ((nodes ++ [NEmpty]) ++ flatten (Z.of_nat (length (nodes ++ [NEmpty]))) kb))).
    rewrite <- app_assoc. cbn [app]. unfold upd. rewrite (idx_mid nodes) by reflexivity. cbn [rbind].
    rewrite Nat2Z.id, set_nth_mid.
    intros E2. apply IH in E2 as (kc & Gc & ->); [|exact Ba|now apply rord_above|lia].
    exists (KSplit a (XFin (et a e)) kb kc). split.
    - intros N i St. apply stored_split in St as (Si & Sb & Sc).
      eapply greedy_split; [exact Si|lia|exact Bs| | |]; rewrite <- Ec; [exact Ndear|now apply Gb|now apply Gc].
    - assert (EL : L = (Z.of_nat (length nodes) + 1 + Z.of_nat (ksize kb))%Z).
      { unfold L. rewrite !app_length, flatten_length. cbn [length]. lia. }
      cbn [flatten]. rewrite <- app_assoc. cbn [app]. rewrite EL. do 3 f_equal.
      { rewrite app_length. cbn [length]. f_equal. lia. }
      f_equal. rewrite app_length. cbn [length]. rewrite flatten_length. lia.
  Qed.
End S.

Lemma Ok_inj_kd {A} (x y : A) : Ok x = Ok y -> y = x.
Proof. congruence. Qed.

(** ** C95: exact arithmetic *)
Theorem C95_greedy : forall (T : Type) (sh : T -> shape XR T) (blo bhi : T -> rv) srt m (l : list T) (md : option Z),
  sort_by_ok edge_cmp srt -> l <> [] -> (Z.of_nat (length l) <= usize_max)%Z ->
  (forall s, In s l -> sh_bbox (sh s) = mkBB (fin3 (blo s)) (fin3 (bhi s)) /\
     vx (blo s) <= vx (bhi s) /\ vy (blo s) <= vy (bhi s) /\ vz (blo s) <= vz (bhi s)) ->
  exists kd lo hi, kd_new sh srt m l md = Ok kd /\ kd_bbox kd = mkBB (fin3 lo) (fin3 hi) /\
    (forall s a, In s l -> crd lo a <= crd (blo s) a /\ crd (bhi s) a <= crd hi a) /\
    greedy blo bhi (kd_nodes kd) 0 (Z.to_nat (match md with Some d => d | None => default_depth (F := XR) (Z.of_nat (length l)) end)) 0 lo hi l.
Proof.
  intros T sh blo bhi srt m l md SO Hne Hlen Hl.
  assert (Bx : boxed sh blo bhi l) by exact Hl.
  destruct (C44_build XR T _ XR_FLaws sh srt m l md SO Hne Hlen) as (kd & E & _).
  { apply (boxed_ordered sh blo bhi), Bx. }
  assert (Hb : exists LO HI, bbox_of_shapes sh l = Ok (mkBB (fin3 LO) (fin3 HI)) /\ rord LO HI /\
    forall s p, In s l -> in_box (blo s) (bhi s) p -> in_box LO HI p).
  { destruct l as [|s0 l]; [congruence|]. unfold bbox_of_shapes. cbn [map bbox_of_list].
    destruct (Hl s0 (or_introl eq_refl)) as (E0 & X & Y & Z). rewrite E0.
    destruct (union_fin (map (fun s => sh_bbox (sh s)) l) (blo s0) (bhi s0) X Y Z) as (LO & HI & EU & X' & Y' & Z' & S1 & S2).
    { intros b Hb. apply in_map_iff in Hb as (s & <- & Hs). exists (blo s), (bhi s). apply (Hl s). now right. }
    exists LO, HI. rewrite EU. split; [reflexivity|]. split; [now split|].
    intros s p [<-|Hs] Hin; [now apply S1|]. apply (S2 (blo s) (bhi s)); auto.
    rewrite <- (proj1 (Hl s (or_intror Hs))). apply in_map_iff. eauto. }
  destruct Hb as (LO & HI & Eb & Ho & Sub).
  exists kd, LO, HI. split; [exact E|]. unfold kd_new in E. rewrite Eb in E. cbn [rbind] in E.
  match type of E with context [kd_build sh srt m ?d [] l _ 0] => set (dep := d) in * end.
  destruct (kd_build sh srt m dep [] l (mkBB (fin3 LO) (fin3 HI)) 0) as [ns| |] eqn:En; cbn [rbind] in E; try discriminate.
  apply Ok_inj_kd in E. subst kd. cbn [kd_bbox kd_nodes]. split; [reflexivity|]. split.
  - intros s a Hs. destruct (Hl s Hs) as (_ & X & Y & Z).
    assert (P1 : in_box LO HI (blo s)) by (apply (Sub s); auto; unfold in_box; lra).
    assert (P2 : in_box LO HI (bhi s)) by (apply (Sub s); auto; unfold in_box; lra).
    destruct P1 as (? & ? & ?), P2 as (? & ? & ?). destruct a; cbn; lra.
  - destruct (build_greedy sh blo bhi srt SO m dep [] l LO HI 0%Z ns Bx Ho Hlen En) as (k & G & ->). apply G. apply stored_root.
Qed.

(** a leaf lists only shapes whose boxes touch its cell *)
Lemma greedy_touch {T} (blo bhi : T -> rv) nodes i depth bad lo hi l : greedy blo bhi nodes i depth bad lo hi l ->
  (forall s, In s l -> touches (blo s) (bhi s) lo hi) ->
  forall j lo' hi' nd s, cell nodes i lo hi j lo' hi' -> idx nodes j = Ok nd -> in_leaf s nd -> touches (blo s) (bhi s) lo' hi'.
Proof.
  induction 1 as [i depth bad lo hi l nd0 E0 Els _|i depth bad lo hi l a t ab below above E0 _ Bs c _ G1 IH1 G2 IH2]; intros Ht j lo' hi' nd s Hc Hj Hs.
  - destruct Hc as [i lo hi|i lo hi a t ab j lo' hi' E1 _|i lo hi a t ab j lo' hi' E1 _].
    + rewrite E0 in Hj. assert (nd0 = nd) by congruence. subst nd0. apply Ht.
      destruct nd; cbn in Els, Hs; try contradiction; injection Els as <-; cbn; auto.
    + rewrite E0 in E1. assert (nd0 = NSplit a (XFin t) ab) by congruence. subst nd0. discriminate.
    + rewrite E0 in E1. assert (nd0 = NSplit a (XFin t) ab) by congruence. subst nd0. discriminate.
  - destruct Bs as (_ & _ & ((r1 & P1 & F1 & _) & (r2 & P2 & F2 & _) & _) & _).
    assert (T1 : forall s, In s below -> touches (blo s) (bhi s) lo (with_crd hi a t)).
    { intros x Hx b. assert (In x l) by (eapply Permutation_in; [apply Permutation_sym, P1|apply in_or_app; now left]).
      rewrite Forall_forall in F1. specialize (F1 x Hx). specialize (Ht x H b). rewrite crd_with. destruct a, b; cbn in *; lra. }
    assert (T2 : forall s, In s above -> touches (blo s) (bhi s) (with_crd lo a t) hi).
    { intros x Hx b. assert (In x l) by (eapply Permutation_in; [apply Permutation_sym, P2|apply in_or_app; now left]).
      rewrite Forall_forall in F2. specialize (F2 x Hx). specialize (Ht x H b). rewrite crd_with. destruct a, b; cbn in *; lra. }
    destruct Hc as [i lo hi|i lo hi a' t' ab' j lo' hi' E1 Hc|i lo hi a' t' ab' j lo' hi' E1 Hc].
    + rewrite E0 in Hj. assert (nd = NSplit a (XFin t) ab) by congruence. subst nd. destruct Hs.
    + rewrite E0 in E1. assert (Q : NSplit (T := T) a (XFin t) ab = NSplit a' (XFin t') ab') by congruence. injection Q as <- <- <-.
      eapply IH1; eauto.
    + rewrite E0 in E1. assert (Q : NSplit (T := T) a (XFin t) ab = NSplit a' (XFin t') ab') by congruence. injection Q as <- <- <-.
      eapply IH2; eauto.
Qed.

Theorem C95_leaf_shapes : forall (T : Type) (sh : T -> shape XR T) (blo bhi : T -> rv) srt m (l : list T) (md : option Z),
  sort_by_ok edge_cmp srt -> l <> [] -> (Z.of_nat (length l) <= usize_max)%Z ->
  (forall s, In s l -> sh_bbox (sh s) = mkBB (fin3 (blo s)) (fin3 (bhi s)) /\
     vx (blo s) <= vx (bhi s) /\ vy (blo s) <= vy (bhi s) /\ vz (blo s) <= vz (bhi s)) ->
  exists kd lo hi, kd_new sh srt m l md = Ok kd /\ kd_bbox kd = mkBB (fin3 lo) (fin3 hi) /\
    forall j lo' hi' nd s, cell (kd_nodes kd) 0 lo hi j lo' hi' -> idx (kd_nodes kd) j = Ok nd -> in_leaf s nd ->
      touches (blo s) (bhi s) lo' hi'.
Proof.
  intros T sh blo bhi srt m l md SO Hne Hlen Hl.
  destruct (C95_greedy T sh blo bhi srt m l md SO Hne Hlen Hl) as (kd & lo & hi & E & Eb & Hin & G).
  exists kd, lo, hi. split; [exact E|]. split; [exact Eb|]. intros j lo' hi' nd s Hc Hj Hs.
  eapply greedy_touch; eauto. intros x Hx a. destruct (Hin x a Hx) as [A B]. destruct (Hl x Hx) as (_ & X & Y & Z).
  destruct a; cbn in *; lra.
Qed.

(** ** Example: sixteen spheres in a row; the tree splits them *)
Definition row_sh (k : nat) : shape XR nat := sphere_shape (mkSphere (fin3 (mkV3 (2 * INR k) 0 0)) (XFin (1 / 2))).
Definition row_lo (k : nat) : rv := mkV3 (2 * INR k - 1 / 2) (- (1 / 2)) (- (1 / 2)).
Definition row_hi (k : nat) : rv := mkV3 (2 * INR k + 1 / 2) (1 / 2) (1 / 2).
Definition row_l : list nat := seq 0 16.

Lemma row_boxes s : sh_bbox (row_sh s) = mkBB (fin3 (row_lo s)) (fin3 (row_hi s)) /\
     vx (row_lo s) <= vx (row_hi s) /\ vy (row_lo s) <= vy (row_hi s) /\ vz (row_lo s) <= vz (row_hi s).
Proof.
  split; [|cbn; lra]. unfold row_sh, row_lo, row_hi, sphere_shape, sp_bbox, bbox_new, v3min, v3max, v3map2, fin3. cbn [sh_bbox sp_center sp_radius vx vy vz fadd fsub XR_FOps xadd xsub xneg].
  assert (Fm : forall a b, a <= b -> fmin (XFin a) (XFin b) = XFin a).
  { intros a b H. unfold fmin. xsimp. cbn [xis_nan xlt]. destruct (Rlt_bool b a) eqn:E; rb; auto. lra. }
  assert (Fx : forall a b, b <= a -> fmax (XFin a) (XFin b) = XFin a).
  { intros a b H. unfold fmax. xsimp. cbn [xis_nan xlt]. destruct (Rlt_bool a b) eqn:E; rb; auto. f_equal. lra. }
  cbn [bmin bmax]. rewrite !Fm, !Fx by lra. f_equal; f_equal; f_equal; lra.
Qed.

Example C95_example : exists kd a t ab, kd_new row_sh (fun l => Ok (isort edge_cmp l)) Debug row_l (Some 4%Z) = Ok kd /\
  idx (kd_nodes kd) 0 = Ok (NSplit a (XFin t) ab).
Proof.
  destruct (C95_greedy nat row_sh row_lo row_hi _ Debug row_l (Some 4%Z) (isort_ok edge_cmp)) as (kd & lo & hi & E & _ & Hin & G).
  { discriminate. }
  { cbn. unfold usize_max. lia. }
  { intros s _. apply row_boxes. }
  assert (I0 : In 0%nat row_l) by (cbn; tauto). assert (I1 : In 1%nat row_l) by (cbn; tauto). assert (I15 : In 15%nat row_l) by (cbn; tauto).
  exists kd. change (Z.to_nat 4) with 4%nat in G.
  inversion G as [i depth bad lo' hi' l' nd E0 Els Why|i depth bad lo' hi' l' a t ab below above E0 H8 Bs c Nd G1 G2]; subst.
  - exfalso. destruct Why as [W|[W|[W|(a & t & be & ab & _ & [[_ W]|W])]]].
    + cbn in W. lia.
    + discriminate.
    + apply (W AX). exists (3 / 2). split; [|left; exists 1%nat; split; [exact I1|cbn; lra]].
      pose proof (Hin 0%nat AX I0) as X0. pose proof (Hin 15%nat AX I15) as X1. pose proof (Hin 0%nat AY I0) as Y0. pose proof (Hin 0%nat AZ I0) as Z0.
      cbn in X0, X1, Y0, Z0. unfold inside, faces, vsub. cbn. split; [lra|]. nra.
    + cbn in W. lia.
    + unfold bad_after in W. destruct (Rlt_dec _ _); lia.
  - exists a, t, ab. split; [exact E|exact E0].
Qed.

Print Assumptions C95_greedy.
Print Assumptions C95_leaf_shapes.
