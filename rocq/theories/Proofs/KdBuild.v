(** * k-d tree: what [build] produces *)
From Coq Require Import ZArith Reals List Bool Lia Lra Permutation Sorted.
From Verif Require Import Model.Num Model.NumX Model.Vector Model.BBox Model.Interaction Model.Shape
  Model.Container Model.KdTree Spec.BoxSpec Spec.KdSpec Proofs.XBase Proofs.FLaws Proofs.BoxProofs.
Import ListNotations.
Local Open Scope Z_scope.

(** ** Trees and their layout in a vector *)
Inductive kdt (F T : Type) := KLeaf (l : list T) | KSplit (a : axis) (t : F) (b c : kdt F T).
Arguments KLeaf {F T}. Arguments KSplit {F T}.

Section Tree.
  Context {F T : Type}.

  Fixpoint ksize (k : kdt F T) : nat :=
    match k with KLeaf _ => 1 | KSplit _ _ b c => S (ksize b + ksize c) end.

  Fixpoint flatten (n : Z) (k : kdt F T) : list (node F T) :=
    match k with
    | KLeaf l => [new_leaf l]
    | KSplit a t b c =>
      NSplit a t (n + 1 + Z.of_nat (ksize b)) :: flatten (n + 1) b ++ flatten (n + 1 + Z.of_nat (ksize b)) c
    end.

  Lemma flatten_length k : forall n, length (flatten n k) = ksize k.
  Proof.
    induction k as [|a t b IHb c IHc]; intros n; [reflexivity|].
    cbn [flatten ksize length]. rewrite app_length, IHb, IHc. lia.
  Qed.

  Lemma ksize_pos k : (0 < ksize k)%nat.
  Proof. destruct k; cbn; lia. Qed.

  (** the subtree [k] is stored at index [i] *)
  Definition stored (nodes : list (node F T)) (i : Z) (k : kdt F T) : Prop :=
    exists pre post, nodes = pre ++ flatten i k ++ post /\ Z.of_nat (length pre) = i.

  Lemma idx_mid {A} (pre : list A) x post i : Z.of_nat (length pre) = i -> idx (pre ++ x :: post) i = Ok x.
  Proof.
    intros <-. unfold idx. destruct (Z.of_nat (length pre) <? 0) eqn:E; [apply Z.ltb_lt in E; lia|].
    rewrite Nat2Z.id, nth_error_app2, Nat.sub_diag by lia. reflexivity.
  Qed.

  Lemma stored_leaf nodes i l : stored nodes i (KLeaf l) -> idx nodes i = Ok (new_leaf l).
  Proof. intros (pre & post & -> & E). cbn [flatten app]. now apply idx_mid. Qed.

  Lemma stored_split nodes i a t b c : stored nodes i (KSplit a t b c) ->
    idx nodes i = Ok (NSplit a t (i + 1 + Z.of_nat (ksize b))) /\
    stored nodes (i + 1) b /\ stored nodes (i + 1 + Z.of_nat (ksize b)) c.
  Proof.
    intros (pre & post & -> & E). cbn [flatten app]. split; [now apply idx_mid|]. split.
    - exists (pre ++ [NSplit a t (i + 1 + Z.of_nat (ksize b))]), (flatten (i + 1 + Z.of_nat (ksize b)) c ++ post).
      rewrite <- !app_assoc. split; [reflexivity|]. rewrite app_length. cbn [length]. lia.
    - exists (pre ++ NSplit a t (i + 1 + Z.of_nat (ksize b)) :: flatten (i + 1) b), post.
      rewrite <- !app_assoc. cbn [app]. split; [reflexivity|].
      rewrite app_length. cbn [length]. rewrite flatten_length. lia.
  Qed.

  Lemma stored_range nodes i k : stored nodes i k -> 0 <= i < Z.of_nat (length nodes).
  Proof.
    intros (pre & post & -> & E). rewrite !app_length, flatten_length. pose proof (ksize_pos k). lia.
  Qed.

  Lemma stored_root k : stored (flatten 0 k) 0 k.
  Proof. exists [], []. now rewrite app_nil_r. Qed.

  Lemma in_new_leaf (s : T) l : in_leaf s (new_leaf (F := F) l) <-> In s l.
  Proof. destruct l as [|x [|y l]]; cbn; firstorder. Qed.
End Tree.

Lemma Permutation_filter {A} (f : A -> bool) l l' : Permutation l l' -> Permutation (filter f l) (filter f l').
Proof.
  induction 1; cbn.
  - constructor.
  - destruct (f x); [now constructor|auto].
  - destruct (f x), (f y); try constructor; apply Permutation_refl.
  - eapply Permutation_trans; eauto.
Qed.

Lemma In_skipn {A} (x : A) n l : In x (skipn n l) -> In x l.
Proof. intros H. rewrite <- (firstn_skipn n l). apply in_or_app. now right. Qed.
Lemma In_firstn {A} (x : A) n l : In x (firstn n l) -> In x l.
Proof. intros H. rewrite <- (firstn_skipn n l). apply in_or_app. now left. Qed.

Section Any.
  Context {F T : Type} {FO : FOps F}.
  Variable sh : T -> shape F T.
  Variable srt : list (bedge F T) -> res (list (bedge F T)).

  Inductive built : nat -> list T -> kdt F T -> Prop :=
  | built_leaf d l : built d l (KLeaf l)
  | built_split d l a edges i e b c :
      srt (shape_edges sh l a) = Ok edges -> 0 <= i -> nth_error edges (Z.to_nat i) = Some e ->
      built d (shapes_below edges i) b -> built d (shapes_above edges i) c ->
      built (S d) l (KSplit a (e_t e) b c).

  Lemma try_axes_edges m k l bb a c a' i edges :
    try_axes sh srt m k l bb a = Ok (c, Some (a', i, edges)) -> srt (shape_edges sh l a') = Ok edges.
  Proof.
    revert a. induction k as [|k IH]; intros a; cbn [try_axes]; [discriminate|].
    destruct (srt (shape_edges sh l a)) as [es| |] eqn:Es; cbn [rbind]; try discriminate.
    destruct (rfold _ _ _) as [st| |]; cbn [rbind]; try discriminate.
    destruct (sc_best st); [|apply IH]. intros H. injection H as <- <- <- <-. exact Es.
  Qed.

  Lemma idx_inv {A} (l : list A) i x : idx l i = Ok x -> 0 <= i /\ nth_error l (Z.to_nat i) = Some x.
  Proof.
    unfold idx. destruct (i <? 0) eqn:E; [discriminate|]. apply Z.ltb_ge in E.
    destruct (nth_error _ _); [|discriminate]. intros H. split; congruence.
  Qed.

  Lemma set_nth_mid {A} (pre : list A) x y post : set_nth (pre ++ x :: post) (length pre) y = pre ++ y :: post.
  Proof. induction pre as [|z pre IH]; cbn; [reflexivity|]. now rewrite IH. Qed.

  Lemma kd_build_built m depth : forall nodes l bb bad nodes',
    kd_build sh srt m depth nodes l bb bad = Ok nodes' ->
    exists k, built depth l k /\ nodes' = nodes ++ flatten (Z.of_nat (length nodes)) k.
  Proof.
    induction depth as [|depth IH]; intros nodes l bb bad nodes'; cbn [kd_build].
    { intros H. exists (KLeaf l). split; [constructor|]. cbn [flatten]. congruence. }
    assert (Lf : forall n' : list (node F T), Ok (nodes ++ [new_leaf l]) = Ok n' ->
      exists k, built (S depth) l k /\ n' = nodes ++ flatten (Z.of_nat (length nodes)) k).
    { intros n' H. exists (KLeaf l). split; [constructor|]. cbn [flatten]. congruence. }
    destruct (_ <=? _); [apply Lf|].
    destruct (bbox_max_extent bb) as [a| |]; cbn [rbind]; try discriminate.
    destruct (try_axes _ _ _ _ _ _ _) as [[bc best]| |] eqn:Et; cbn [rbind]; try discriminate.
    destruct (_ || _); [apply Lf|].
    destruct best as [[[a' i] edges]|]; [|discriminate].
    destruct (idx edges i) as [e| |] eqn:Ei; cbn [rbind]; try discriminate.
    apply try_axes_edges in Et. apply idx_inv in Ei as [Hi Ei].
    destruct (kd_build sh srt m depth (nodes ++ [NEmpty]) _ _ _) as [n1| |] eqn:E1; cbn [rbind]; try discriminate.
    apply IH in E1 as (kb & Bb & ->).
    set (L := Z.of_nat (length ((nodes ++ [NEmpty]) ++ flatten (Z.of_nat (length (nodes ++ [NEmpty]))) kb))).
    rewrite <- app_assoc. cbn [app]. unfold upd. rewrite (idx_mid nodes) by reflexivity. cbn [rbind].
    rewrite Nat2Z.id, set_nth_mid.
    intros E2. apply IH in E2 as (kc & Bc & ->).
    exists (KSplit a' (e_t e) kb kc). split; [econstructor; eauto|].
    assert (EL : L = Z.of_nat (length nodes) + 1 + Z.of_nat (ksize kb)).
    { unfold L. rewrite !app_length, flatten_length. cbn [length]. lia. }
    cbn [flatten]. rewrite <- app_assoc. cbn [app]. rewrite EL. do 3 f_equal.
    { rewrite app_length. cbn [length]. f_equal. lia. }
    f_equal. rewrite app_length. cbn [length]. rewrite flatten_length. lia.
  Qed.

  (** leaves hold only given shapes *)
  Fixpoint kin (s : T) (k : kdt F T) : Prop :=
    match k with KLeaf l => In s l | KSplit _ _ b c => kin s b \/ kin s c end.

  Hypothesis Perm : forall l l', srt l = Ok l' -> Permutation l l'.

  Lemma shape_edges_in l a e : In e (shape_edges sh l a) ->
    In (e_shape e) l /\ e_t e = v3get (if e_start e then bmin (sh_bbox (sh (e_shape e))) else bmax (sh_bbox (sh (e_shape e)))) a.
  Proof.
    unfold shape_edges. rewrite in_flat_map. intros (s & Hs & [<-|[<-|[]]]); auto.
  Qed.

  Lemma shapes_below_in l a edges i s : srt (shape_edges sh l a) = Ok edges -> In s (shapes_below edges i) -> In s l.
  Proof.
    intros H. unfold shapes_below. rewrite in_map_iff. intros (e & <- & He).
    apply filter_In in He as [He _]. apply In_firstn in He.
    apply (shape_edges_in l a). eapply Permutation_in; [apply Permutation_sym, Perm, H|exact He].
  Qed.

  Lemma shapes_above_in l a edges i s : srt (shape_edges sh l a) = Ok edges -> In s (shapes_above edges i) -> In s l.
  Proof.
    intros H. unfold shapes_above. rewrite in_map_iff. intros (e & <- & He).
    apply filter_In in He as [He _]. apply In_skipn in He.
    apply (shape_edges_in l a). eapply Permutation_in; [apply Permutation_sym, Perm, H|exact He].
  Qed.

  Lemma built_sub d l k s : built d l k -> kin s k -> In s l.
  Proof.
    induction 1 as [|d l a edges i e b c E Hi He B1 IH1 B2 IH2]; cbn [kin]; auto.
    intros [H|H]; [eapply shapes_below_in|eapply shapes_above_in]; eauto.
  Qed.

  (** lengths *)
  Lemma edges_starts l a : length (filter (fun e => e_start e) (shape_edges sh l a)) = length l.
  Proof. induction l as [|s l IH]; cbn; auto. Qed.
  Lemma edges_ends l a : length (filter (fun e => negb (e_start e)) (shape_edges sh l a)) = length l.
  Proof. induction l as [|s l IH]; cbn; auto. Qed.
  Lemma edges_length l a : length (shape_edges sh l a) = (2 * length l)%nat.
  Proof. unfold shape_edges. induction l as [|s l IH]; cbn [flat_map app length]; [reflexivity|]. rewrite IH. lia. Qed.

  Lemma filter_app_length {A} (f : A -> bool) l l' :
    length (filter f (l ++ l')) = (length (filter f l) + length (filter f l'))%nat.
  Proof. induction l as [|x l IH]; cbn; auto. destruct (f x); cbn; auto. Qed.

  Lemma below_length l a edges i : srt (shape_edges sh l a) = Ok edges -> (length (shapes_below edges i) <= length l)%nat.
  Proof.
    intros H. unfold shapes_below. rewrite map_length. apply Perm in H.
    apply (Permutation_filter (fun e => e_start e)), Permutation_length in H. rewrite edges_starts in H.
    rewrite <- (firstn_skipn (Z.to_nat i) edges), filter_app_length in H. lia.
  Qed.
  Lemma above_length l a edges i : srt (shape_edges sh l a) = Ok edges -> (length (shapes_above edges i) <= length l)%nat.
  Proof.
    intros H. unfold shapes_above. rewrite map_length. apply Perm in H.
    apply (Permutation_filter (fun e => negb (e_start e))), Permutation_length in H. rewrite edges_ends in H.
    rewrite <- (firstn_skipn (Z.to_nat (i + 1)) edges), filter_app_length in H. lia.
  Qed.

  (** the scan never panics and its best edge is in range *)
  Definition best_in (n : nat) (o : option Z) : Prop := match o with Some i => 0 <= i < Z.of_nat n | None => True end.

  Lemma scan_total m bb a (edges : list (bedge F T)) n : (length (filter (fun e => e_start e) edges) = n)%nat ->
    (length (filter (fun e => negb (e_start e)) edges) = n)%nat -> Z.of_nat n <= usize_max ->
    forall suf pre st, edges = pre ++ suf ->
      sc_below st = Z.of_nat (length (filter (fun e => e_start e) pre)) ->
      sc_above st = Z.of_nat n - Z.of_nat (length (filter (fun e => negb (e_start e)) pre)) ->
      best_in (length edges) (sc_best st) ->
      exists st', rfold (scan_step m bb a edges) (map Z.of_nat (seq (length pre) (length suf))) st = Ok st' /\
        best_in (length edges) (sc_best st').
  Proof.
    intros Hs He Hn. induction suf as [|e suf IH]; intros pre st E Eb Ea Hb.
    { cbn. eauto. }
    cbn [length seq map rfold]. unfold scan_step at 1.
    assert (Ix : idx edges (Z.of_nat (length pre)) = Ok e) by (rewrite E; now apply idx_mid).
    rewrite Ix. cbn [rbind].
    assert (Cs := Hs). assert (Ce := He). rewrite E, filter_app_length in Cs, Ce. cbn [filter] in Cs, Ce.
    assert (HA : exists na, (if e_start e then Ok (sc_above st) else usize_of m (sc_above st - 1)) = Ok na /\
      na = Z.of_nat n - Z.of_nat (length (filter (fun e => negb (e_start e)) (pre ++ [e])))).
    { rewrite filter_app_length. cbn [filter]. destruct (e_start e); cbn [negb length] in *.
      - exists (sc_above st). split; [reflexivity|lia].
      - exists (sc_above st - 1). split; [|lia]. unfold usize_of, in_rangeb.
        replace (0 <=? sc_above st - 1) with true by (symmetry; apply Z.leb_le; lia).
        replace (sc_above st - 1 <=? usize_max) with true by (symmetry; apply Z.leb_le; lia). reflexivity. }
    destruct HA as (na & -> & Hna). cbn [rbind].
    assert (HB : exists nb, (if e_start e then usize_of m (sc_below st + 1) else Ok (sc_below st)) = Ok nb /\
      nb = Z.of_nat (length (filter (fun e => e_start e) (pre ++ [e])))).
    { rewrite filter_app_length. cbn [filter]. destruct (e_start e); cbn [negb length] in *.
      - exists (sc_below st + 1). split; [|lia]. unfold usize_of, in_rangeb.
        replace (0 <=? sc_below st + 1) with true by (symmetry; apply Z.leb_le; lia).
        replace (sc_below st + 1 <=? usize_max) with true by (symmetry; apply Z.leb_le; lia). reflexivity.
      - exists (sc_below st). split; [reflexivity|lia]. }
    destruct HB as (nb & -> & Hnb).
    set (cb := if _ && _ then _ else _).
    assert (Hcb : best_in (length edges) (snd cb)).
    { unfold cb. destruct (_ && _); [|exact Hb]. destruct (flt _ _); [|exact Hb].
      cbn [snd best_in]. rewrite E, app_length. cbn [length]. lia. }
    destruct cb as [bc be]. cbn [rbind]. cbn [snd] in Hcb.
    destruct (IH (pre ++ [e]) (mkScan nb na bc be)) as (st' & Est & Hst); auto.
    { now rewrite <- app_assoc. }
    exists st'. split; [|exact Hst]. rewrite <- Est. rewrite app_length. cbn [length].
    now rewrite Nat.add_1_r.
  Qed.
End Any.

Section Laws.
  Context {F T : Type} {FO : FOps F} {FL : FLaws F}.
  Variable sh : T -> shape F T.
  Variable srt : list (bedge F T) -> res (list (bedge F T)).
  Hypothesis SO : sort_by_ok edge_cmp srt.

  Let Perm : forall l l', srt l = Ok l' -> Permutation l l'.
  Proof. intros l. apply (SO l). Qed.

  (** the comparison is a total order on numbers *)
  Lemma edge_cmp_total (l : list (bedge F T)) : (forall e, In e l -> fis_nan (e_t e) = false) -> total_cmp edge_cmp l.
  Proof.
    intros Hn. split.
    - intros a b Ha Hb. apply Hn in Ha, Hb. unfold edge_cmp.
      rewrite !emb_lt. rewrite emb_nan in Ha, Hb. rewrite (xlt_not_le (emb (e_t a))), (xlt_not_le (emb (e_t b))) by auto.
      destruct (xle (emb (e_t b)) (emb (e_t a))) eqn:E1, (xle (emb (e_t a)) (emb (e_t b))) eqn:E2; cbn [negb]; auto.
      + destruct (e_start a), (e_start b); reflexivity.
      + exfalso. destruct (emb (e_t a)) as [|[]|], (emb (e_t b)) as [|[]|]; cbn in *; try discriminate. rb. lra.
    - intros a b c Ha Hb Hc. apply Hn in Ha, Hb, Hc. unfold edge_cmp.
      rewrite !emb_lt. rewrite emb_nan in Ha, Hb, Hc.
      rewrite (xlt_not_le (emb (e_t a)) (emb (e_t b))), (xlt_not_le (emb (e_t b)) (emb (e_t a))),
        (xlt_not_le (emb (e_t b)) (emb (e_t c))), (xlt_not_le (emb (e_t c)) (emb (e_t b))),
        (xlt_not_le (emb (e_t a)) (emb (e_t c))), (xlt_not_le (emb (e_t c)) (emb (e_t a))) by auto.
      assert (Tot : forall x y, xis_nan x = false -> xis_nan y = false -> xle x y = true \/ xle y x = true).
      { intros [|[]|x] [|[]|y]; cbn; intros; try discriminate; auto. destruct (Rle_lt_dec x y); [left|right]; rb; lra. }
      pose proof (Tot _ _ Ha Hb) as T1. pose proof (Tot _ _ Hb Hc) as T2. pose proof (Tot _ _ Ha Hc) as T3. clear Tot Ha Hb Hc Hn.
      pose proof (xle_trans (emb (e_t a)) (emb (e_t b)) (emb (e_t c))).
      pose proof (xle_trans (emb (e_t c)) (emb (e_t b)) (emb (e_t a))).
      pose proof (xle_trans (emb (e_t b)) (emb (e_t c)) (emb (e_t a))).
      pose proof (xle_trans (emb (e_t c)) (emb (e_t a)) (emb (e_t b))).
      destruct (xle (emb (e_t a)) (emb (e_t b))), (xle (emb (e_t b)) (emb (e_t a))), (xle (emb (e_t b)) (emb (e_t c))),
        (xle (emb (e_t c)) (emb (e_t b))), (xle (emb (e_t a)) (emb (e_t c))), (xle (emb (e_t c)) (emb (e_t a)));
        cbn [negb]; try congruence; try (exfalso; clear - T1 T2 T3 H H0 H1 H2; intuition congruence);
      destruct (e_start a), (e_start b), (e_start c); congruence.
  Qed.

  Lemma v3fin_get (p : V3 F) a : v3fin p -> ffin (v3get p a).
  Proof. intros (X & Y & Z). destruct a; assumption. Qed.
  Lemma v3le_get (p q : V3 F) a : v3le p q -> fle (v3get p a) (v3get q a) = true.
  Proof. intros (X & Y & Z). destruct a; assumption. Qed.

  Lemma edges_fin l a e : (forall s, In s l -> box_ordered (sh_bbox (sh s))) -> In e (shape_edges sh l a) -> ffin (e_t e).
  Proof.
    intros H He. apply shape_edges_in in He as [Hs ->]. apply H in Hs as (A & B & _).
    destruct (e_start e); now apply v3fin_get.
  Qed.

  (** extents of finite boxes are numbers, so [max_extent] does not panic *)
  Lemma fsub_nnan (a b : F) : ffin a -> ffin b -> fis_nan (fsub a b) = false.
  Proof.
    unfold ffin. rewrite !emb_nan, !emb_inf, emb_sub. intros [A1 A2] [B1 B2].
    destruct (emb a) as [|[]|x], (emb b) as [|[]|y]; cbn in *; try discriminate. apply rn_nnan.
  Qed.

  Lemma largest_axis_total (v : V3 F) : v3nnan v -> exists a, largest_axis v = Ok a.
  Proof.
    intros (X & Y & Z). unfold largest_axis. rewrite !emb_le. rewrite emb_nan in X, Y, Z.
    pose proof (xlt_not_le (emb (vx v)) (emb (vy v)) X Y).
    pose proof (xlt_not_le (emb (vx v)) (emb (vz v)) X Z).
    pose proof (xlt_not_le (emb (vy v)) (emb (vz v)) Y Z).
    pose proof (xlt_le (emb (vx v)) (emb (vy v))). pose proof (xlt_le (emb (vx v)) (emb (vz v))).
    pose proof (xlt_le (emb (vy v)) (emb (vz v))).
    pose proof (xle_trans (emb (vy v)) (emb (vz v)) (emb (vx v))).
    pose proof (xle_trans (emb (vz v)) (emb (vy v)) (emb (vx v))).
    pose proof (xle_trans (emb (vx v)) (emb (vz v)) (emb (vy v))).
    pose proof (xle_trans (emb (vz v)) (emb (vx v)) (emb (vy v))).
    pose proof (xle_trans (emb (vx v)) (emb (vy v)) (emb (vz v))).
    pose proof (xle_trans (emb (vy v)) (emb (vx v)) (emb (vz v))).
    destruct (xle (emb (vy v)) (emb (vx v))) eqn:E1, (xle (emb (vz v)) (emb (vx v))) eqn:E2, (xle (emb (vz v)) (emb (vy v))) eqn:E3;
      cbn [negb] in *; eauto; exfalso.
    - rewrite H0 in H3. specialize (H3 eq_refl). intuition congruence.
    - rewrite H1 in H4. specialize (H4 eq_refl). intuition congruence.
  Qed.

  Lemma max_extent_total b : v3fin (bmin b) -> v3fin (bmax b) -> exists a, bbox_max_extent b = Ok a.
  Proof.
    intros (A1 & A2 & A3) (B1 & B2 & B3). apply largest_axis_total. unfold bbox_diagonal, v3sub; cbn.
    repeat split; cbn [vx vy vz]; now apply fsub_nnan.
  Qed.

  Lemma try_axes_total m k l bb : (forall s, In s l -> box_ordered (sh_bbox (sh s))) -> Z.of_nat (length l) <= usize_max ->
    forall a, exists c best, try_axes sh srt m k l bb a = Ok (c, best) /\
      match best with None => True | Some (a', i, edges) => srt (shape_edges sh l a') = Ok edges /\ 0 <= i < Z.of_nat (length edges) end.
  Proof.
    intros Hl Hn. induction k as [|k IH]; intros a; cbn [try_axes]; [exists fmaxv, None; auto|].
    destruct (SO (shape_edges sh l a)) as (_ & _ & St).
    destruct St as (edges & Ee & _).
    { apply edge_cmp_total. intros e He. now apply (edges_fin l a e Hl He). }
    rewrite Ee. cbn [rbind].
    pose proof (Perm _ _ Ee) as P.
    destruct (scan_total m bb a edges (length l)) with (suf := edges) (pre := @nil (bedge F T))
      (st := mkScan (F := F) 0 (Z.of_nat (length l)) fmaxv None) as (st & Est & Hst); auto.
    { rewrite <- (Permutation_length (Permutation_filter _ _ _ P)). apply edges_starts. }
    { rewrite <- (Permutation_length (Permutation_filter _ _ _ P)). apply edges_ends. }
    { cbn. lia. }
    { exact I. }
    assert (EL : length edges = (2 * length l)%nat) by (rewrite <- (Permutation_length P); apply edges_length).
    cbn [length] in Est. rewrite EL in Est. rewrite Est. cbn [rbind].
    destruct (sc_best st) as [i|]; [|apply IH].
    do 2 eexists. split; [reflexivity|]. cbn [best_in] in Hst. split; [exact Ee|exact Hst].
  Qed.

  Lemma v3set_fin (p : V3 F) a x : v3fin p -> ffin x -> v3fin (v3set p a x).
  Proof. intros (X & Y & Z) H. destruct a; repeat split; cbn; try apply H; try apply X; try apply Y; apply Z. Qed.

  Lemma kd_build_total m depth : forall nodes l bb bad,
    (forall s, In s l -> box_ordered (sh_bbox (sh s))) -> Z.of_nat (length l) <= usize_max ->
    v3fin (bmin bb) -> v3fin (bmax bb) ->
    exists nodes', kd_build sh srt m depth nodes l bb bad = Ok nodes'.
  Proof.
    induction depth as [|depth IH]; intros nodes l bb bad Hl Hn B1 B2; cbn [kd_build]; [eauto|].
    destruct (_ <=? _); [eauto|].
    destruct (max_extent_total bb B1 B2) as (a & ->). cbn [rbind].
    destruct (try_axes_total m 3 l bb Hl Hn a) as (c & best & -> & Hb). cbn [rbind].
    destruct best as [[[a' i] edges]|]; cbn [orb]; [|rewrite orb_true_r; cbn; eauto].
    destruct (_ || _); [eauto|].
    destruct Hb as [Ee Hi].
    destruct (nth_error edges (Z.to_nat i)) as [e|] eqn:En.
    2:{ apply nth_error_None in En. lia. }
    unfold idx at 1. destruct (i <? 0) eqn:Ei; [apply Z.ltb_lt in Ei; lia|]. rewrite En. cbn [rbind].
    assert (He : ffin (e_t e)).
    { apply (edges_fin l a'); auto. eapply Permutation_in; [apply Permutation_sym, Perm, Ee|]. eapply nth_error_In; eauto. }
    match goal with |- context [kd_build sh srt m depth (nodes ++ [NEmpty]) ?l1 ?b1 ?bd] =>
      destruct (IH (nodes ++ [NEmpty]) l1 b1 bd) as (n1 & E1) end.
    { intros s Hs. apply Hl. eapply (shapes_below_in sh srt Perm); eauto. }
    { pose proof (below_length sh srt Perm l a' edges i Ee). lia. }
    { exact B1. }
    { cbn [bmax]. now apply v3set_fin. }
    rewrite E1. cbn [rbind]. apply kd_build_built in E1 as (kb & _ & ->).
    unfold upd. rewrite <- app_assoc. cbn [app]. rewrite (idx_mid nodes) by reflexivity. cbn [rbind].
    apply IH.
    { intros s Hs. apply Hl. eapply (shapes_above_in sh srt Perm); eauto. }
    { pose proof (above_length sh srt Perm l a' edges i Ee). lia. }
    { cbn [bmin]. now apply v3set_fin. }
    { exact B2. }
  Qed.

  (** ** No shape is lost *)
  Lemma sorted_before {A} (R : A -> A -> Prop) (l : list A) i j x y : StronglySorted R l ->
    nth_error l i = Some x -> nth_error l j = Some y -> (i < j)%nat -> R x y.
  Proof.
    intros S. revert i j. induction S as [|z l S IH H]; intros i j Hi Hj Hij.
    - destruct i; discriminate.
    - destruct j as [|j]; [lia|]. destruct i as [|i].
      + cbn in Hi. injection Hi as ->. rewrite Forall_forall in H. apply H. eapply nth_error_In; eauto.
      + apply (IH i j); auto. lia.
  Qed.

  Lemma shapes_below_intro (edges : list (bedge F T)) i p e : nth_error edges p = Some e -> e_start e = true ->
    (p < Z.to_nat i)%nat -> In (e_shape e) (shapes_below edges i).
  Proof.
    intros H Hs Hp. unfold shapes_below. apply in_map. apply filter_In. split; [|exact Hs].
    apply nth_error_In with p. rewrite <- H. rewrite <- (firstn_skipn (Z.to_nat i) edges) at 2.
    symmetry. apply nth_error_app1. rewrite firstn_length.
    assert (p < length edges)%nat by (apply nth_error_Some; congruence). lia.
  Qed.

  Lemma shapes_above_intro (edges : list (bedge F T)) i p e : nth_error edges p = Some e -> e_start e = false ->
    (Z.to_nat i < p)%nat -> 0 <= i -> In (e_shape e) (shapes_above edges i).
  Proof.
    intros H Hs Hp Hi. unfold shapes_above. apply in_map. apply filter_In. split; [|now rewrite Hs].
    apply nth_error_In with (p - Z.to_nat (i + 1))%nat. rewrite <- H.
    assert (p < length edges)%nat by (apply nth_error_Some; congruence).
    rewrite <- (firstn_skipn (Z.to_nat (i + 1)) edges) at 2. rewrite nth_error_app2.
    - rewrite firstn_length. f_equal. lia.
    - rewrite firstn_length. lia.
  Qed.

  (** the two edges of a shape, in order; the split edge [e] at index [i] *)
  Lemma classify l a edges i e s : (forall s, In s l -> box_ordered (sh_bbox (sh s))) ->
    srt (shape_edges sh l a) = Ok edges -> 0 <= i -> nth_error edges (Z.to_nat i) = Some e -> In s l ->
    (In s (shapes_below edges i) \/ In s (shapes_above edges i)) /\
    (flt (v3get (bmin (sh_bbox (sh s))) a) (e_t e) = true -> In s (shapes_below edges i)) /\
    (flt (e_t e) (v3get (bmax (sh_bbox (sh s))) a) = true -> In s (shapes_above edges i)).
  Proof.
    intros Hl Ee Hi He Hs.
    destruct (SO (shape_edges sh l a)) as (_ & _ & St). destruct St as (edges' & Ee' & Srt).
    { apply edge_cmp_total. intros x Hx. now apply (edges_fin l a x Hl Hx). }
    assert (edges' = edges) by congruence. subst edges'. clear Ee'.
    pose proof (Perm _ _ Ee) as P.
    assert (Fin : forall x, In x edges -> ffin (e_t x)).
    { intros x Hx. apply (edges_fin l a x Hl). eapply Permutation_in; [apply Permutation_sym, P|exact Hx]. }
    set (es := mkEdge true (v3get (bmin (sh_bbox (sh s))) a) s).
    set (ee := mkEdge false (v3get (bmax (sh_bbox (sh s))) a) s).
    assert (I1 : In es edges). { eapply Permutation_in; [apply P|]. apply in_flat_map. exists s. split; [auto|now left]. }
    assert (I2 : In ee edges). { eapply Permutation_in; [apply P|]. apply in_flat_map. exists s. split; [auto|right; now left]. }
    apply In_nth_error in I1 as (p1 & E1). apply In_nth_error in I2 as (p2 & E2).
    assert (N1 := proj1 (Fin _ (nth_error_In _ _ E1))). assert (N2 := proj1 (Fin _ (nth_error_In _ _ E2))).
    assert (Ne := proj1 (Fin _ (nth_error_In _ _ He))).
    pose proof (v3le_get _ _ a (proj2 (proj2 (Hl s Hs)))) as Ord.
    cbn [es ee e_t] in N1, N2.
    rewrite emb_nan in N1, N2, Ne. rewrite emb_le in Ord.
    assert (Hp : (p1 < p2)%nat).
    { destruct (lt_eq_lt_dec p1 p2) as [[H|H]|H]; auto; exfalso.
      - subst p2. rewrite E1 in E2. discriminate.
      - pose proof (sorted_before _ _ _ _ _ _ Srt E2 E1 H) as Q. apply Q. unfold edge_cmp. cbn [e_t e_start ee es].
        rewrite !emb_lt. rewrite (xlt_not_le (emb (v3get (bmax _) a))) by auto. rewrite Ord. cbn [negb].
        destruct (xlt _ _); reflexivity. }
    assert (B : flt (v3get (bmin (sh_bbox (sh s))) a) (e_t e) = true -> In s (shapes_below edges i)).
    { intros H. apply (shapes_below_intro edges i p1 es); auto.
      destruct (lt_eq_lt_dec p1 (Z.to_nat i)) as [[G|G]|G]; auto; exfalso.
      - subst p1. rewrite E1 in He. injection He as <-. cbn [e_t es] in H. rewrite emb_lt in H.
        rewrite xlt_not_le in H by auto. rewrite xle_refl in H by auto. discriminate.
      - pose proof (sorted_before _ _ _ _ _ _ Srt He E1 G) as Q. unfold edge_cmp in Q. cbn [e_t es] in Q. rewrite H in Q.
        destruct (flt (e_t e) _) eqn:E; [|now apply Q].
        rewrite emb_lt in E, H. rewrite xlt_not_le in E by auto. apply xlt_le in H. rewrite H in E. discriminate. }
    assert (A : flt (e_t e) (v3get (bmax (sh_bbox (sh s))) a) = true -> In s (shapes_above edges i)).
    { intros H. apply (shapes_above_intro edges i p2 ee); auto.
      destruct (lt_eq_lt_dec p2 (Z.to_nat i)) as [[G|G]|G]; auto; exfalso.
      - pose proof (sorted_before _ _ _ _ _ _ Srt E2 He G) as Q. unfold edge_cmp in Q. cbn [e_t ee] in Q. rewrite H in Q.
        destruct (flt (v3get (bmax (sh_bbox (sh s))) a) (e_t e)) eqn:E; [|now apply Q].
        rewrite emb_lt in E, H. rewrite xlt_not_le in E by auto. apply xlt_le in H. rewrite H in E. discriminate.
      - subst p2. rewrite E2 in He. injection He as <-. cbn [e_t ee] in H. rewrite emb_lt in H.
        rewrite xlt_not_le in H by auto. rewrite xle_refl in H by auto. discriminate. }
    split; [|now split].
    destruct (lt_dec p1 (Z.to_nat i)) as [G|G].
    - left. now apply (shapes_below_intro edges i p1 es).
    - right. apply (shapes_above_intro edges i p2 ee); auto. lia.
  Qed.

  Lemma below_ordered l a edges i : (forall s, In s l -> box_ordered (sh_bbox (sh s))) ->
    srt (shape_edges sh l a) = Ok edges -> forall s, In s (shapes_below edges i) -> box_ordered (sh_bbox (sh s)).
  Proof. intros H E s Hs. apply H. eapply (shapes_below_in sh srt Perm); eauto. Qed.
  Lemma above_ordered l a edges i : (forall s, In s l -> box_ordered (sh_bbox (sh s))) ->
    srt (shape_edges sh l a) = Ok edges -> forall s, In s (shapes_above edges i) -> box_ordered (sh_bbox (sh s)).
  Proof. intros H E s Hs. apply H. eapply (shapes_above_in sh srt Perm); eauto. Qed.

  Lemma built_all d l k : built sh srt d l k -> (forall s, In s l -> box_ordered (sh_bbox (sh s))) ->
    forall s, In s l -> kin s k.
  Proof.
    induction 1 as [|d l a edges i e b c E Hi He B1 IH1 B2 IH2]; intros Hl s Hs; cbn [kin]; auto.
    destruct (classify l a edges i e s Hl E Hi He Hs) as ([H|H] & _).
    - left. apply IH1; auto. eapply below_ordered; eauto.
    - right. apply IH2; auto. eapply above_ordered; eauto.
  Qed.
End Laws.
