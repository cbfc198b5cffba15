(** * k-d tree: the two queries as recursive walks over the tree *)
From Coq Require Import ZArith Reals List Bool Lia Lra Permutation Sorted.
From Verif Require Import Model.Num Model.NumX Model.Vector Model.BBox Model.Interaction Model.Shape
  Model.Container Model.KdTree Spec.RVec Spec.BoxSpec Spec.KdSpec Proofs.XBase Proofs.FLaws Proofs.BoxProofs Proofs.KdBuild.
Import ListNotations.
Local Open Scope Z_scope.

Section Any.
  Context {F T : Type} {FO : FOps F}.
  Variable sh : T -> shape F T.
  Local Open Scope f_scope.

  Definition below_first (r : ray F) (a : axis) (t : F) : bool :=
    (v3get (r_o r) a <? t) || ((v3get (r_o r) a =? t) && (v3get (r_d r) a <=? f0)).
  Definition tsplit (r : ray F) (a : axis) (t : F) : F := (t - v3get (r_o r) a) / v3get (r_d r) a.

  (** [true] when the loop breaks *)
  Fixpoint walk (k : kdt F T) (r : ray F) (i : option (interaction F T)) (t_min t_max : F)
    : res (bool * ray F * option (interaction F T)) :=
    if r_tmax r <? t_min then Ok (true, r, i)
    else match k with
    | KLeaf l => let! (i, r) := last_hit sh l r i in Ok (false, r, i)
    | KSplit a t b c =>
      if (tsplit r a t >? t_max) || (tsplit r a t <=? f0) then
        (if below_first r a t then walk b r i t_min t_max else walk c r i t_min t_max)
      else if tsplit r a t <? t_min then
        (if below_first r a t then walk c r i t_min t_max else walk b r i t_min t_max)
      else
        rbind (if below_first r a t then walk b r i t_min (tsplit r a t) else walk c r i t_min (tsplit r a t))
        (fun x => match x with
         | (true, r', i') => Ok (true, r', i')
         | (false, r', i') =>
           if below_first r a t then walk c r' i' (tsplit r a t) t_max else walk b r' i' (tsplit r a t) t_max
         end)
    end.

  (** [Some b]: the loop ended with the answer [b] *)
  Fixpoint walk_p (k : kdt F T) (r : ray F) (t_min t_max : F) : res (option bool) :=
    if r_tmax r <? t_min then Ok (Some false)
    else match k with
    | KLeaf l => let! b := any_hit sh l r in Ok (if b then Some true else None)
    | KSplit a t b c =>
      if (tsplit r a t >? t_max) || (tsplit r a t <=? f0) then
        (if below_first r a t then walk_p b r t_min t_max else walk_p c r t_min t_max)
      else if tsplit r a t <? t_min then
        (if below_first r a t then walk_p c r t_min t_max else walk_p b r t_min t_max)
      else
        rbind (if below_first r a t then walk_p b r t_min (tsplit r a t) else walk_p c r t_min (tsplit r a t))
        (fun x => match x with
         | Some b => Ok (Some b)
         | None => if below_first r a t then walk_p c r (tsplit r a t) t_max else walk_p b r (tsplit r a t) t_max
         end)
    end.

  Definition resume (nodes : list (node F T)) (f : nat) (todos : list (todo F)) (x : bool * ray F * option (interaction F T))
    : res (option (interaction F T)) :=
    match x with
    | (true, _, i) => Ok i
    | (false, r, i) =>
      match todos with
      | [] => Ok i
      | td :: todos => kd_loop sh nodes f r i todos (td_node td) (td_min td) (td_max td)
      end
    end.

  Lemma kd_loop_walk nodes k : forall f n r i todos t_min t_max, stored nodes n k -> (ksize k <= f)%nat ->
    exists f', (f <= f' + ksize k)%nat /\
      kd_loop sh nodes f r i todos n t_min t_max = rbind (walk k r i t_min t_max) (resume nodes f' todos).
  Proof.
    induction k as [l|a t b IHb c IHc]; intros f n r i todos t_min t_max St Hf.
    - destruct f as [|f]; [cbn in Hf; lia|]. exists f. split; [cbn; lia|].
      cbn [kd_loop walk]. destruct (_ <? _); [reflexivity|].
      rewrite (stored_leaf _ _ _ St). cbn [rbind].
      assert (E : match new_leaf (F := F) l with NShape s => [s] | NShapes l => l | _ => [] end = l).
      { destruct l as [|x [|y l]]; reflexivity. }
      destruct l as [|x [|y l]]; cbn [new_leaf]; destruct (last_hit _ _ _ _) as [[i' r']| |]; reflexivity.
    - destruct f as [|f]; [cbn in Hf; lia|]. cbn [ksize] in Hf |- *.
      destruct (stored_split _ _ _ _ _ _ St) as (E & Sb & Sc).
      cbn [kd_loop walk]. destruct (_ <? _).
      { exists f. split; [lia|reflexivity]. }
      rewrite E. cbn [rbind]. unfold split_step, child_order.
      fold (tsplit r a t). fold (below_first r a t).
      destruct (below_first r a t).
      + destruct (_ || _).
        { destruct (IHb f _ r i todos t_min t_max Sb ltac:(lia)) as (f' & Hf' & ->). exists f'. split; [lia|reflexivity]. }
        destruct (_ <? _).
        { destruct (IHc f _ r i todos t_min t_max Sc ltac:(lia)) as (f' & Hf' & ->). exists f'. split; [lia|reflexivity]. }
        destruct (IHb f _ r i (mkTodo (n + 1 + Z.of_nat (ksize b)) (tsplit r a t) t_max :: todos) t_min (tsplit r a t) Sb ltac:(lia)) as (f1 & Hf1 & ->).
        destruct (walk b r i t_min (tsplit r a t)) as [[[[] r'] i']| |]; cbn [rbind resume td_node td_min td_max];
          try (exists f; split; [lia|reflexivity]).
        destruct (IHc f1 _ r' i' todos (tsplit r a t) t_max Sc ltac:(lia)) as (f' & Hf' & ->). exists f'. split; [lia|reflexivity].
      + destruct (_ || _).
        { destruct (IHc f _ r i todos t_min t_max Sc ltac:(lia)) as (f' & Hf' & ->). exists f'. split; [lia|reflexivity]. }
        destruct (_ <? _).
        { destruct (IHb f _ r i todos t_min t_max Sb ltac:(lia)) as (f' & Hf' & ->). exists f'. split; [lia|reflexivity]. }
        destruct (IHc f _ r i (mkTodo (n + 1) (tsplit r a t) t_max :: todos) t_min (tsplit r a t) Sc ltac:(lia)) as (f1 & Hf1 & ->).
        destruct (walk c r i t_min (tsplit r a t)) as [[[[] r'] i']| |]; cbn [rbind resume td_node td_min td_max];
          try (exists f; split; [lia|reflexivity]).
        destruct (IHb f1 _ r' i' todos (tsplit r a t) t_max Sb ltac:(lia)) as (f' & Hf' & ->). exists f'. split; [lia|reflexivity].
  Qed.

  Definition resume_p (nodes : list (node F T)) (f : nat) (r : ray F) (todos : list (todo F)) (x : option bool) : res bool :=
    match x with
    | Some b => Ok b
    | None =>
      match todos with
      | [] => Ok false
      | td :: todos => kd_loop_p sh nodes f r todos (td_node td) (td_min td) (td_max td)
      end
    end.

  Lemma kd_loop_p_walk nodes k : forall f n r todos t_min t_max, stored nodes n k -> (ksize k <= f)%nat ->
    exists f', (f <= f' + ksize k)%nat /\
      kd_loop_p sh nodes f r todos n t_min t_max = rbind (walk_p k r t_min t_max) (resume_p nodes f' r todos).
  Proof.
    induction k as [l|a t b IHb c IHc]; intros f n r todos t_min t_max St Hf.
    - destruct f as [|f]; [cbn in Hf; lia|]. exists f. split; [cbn; lia|].
      cbn [kd_loop_p walk_p]. destruct (_ <? _); [reflexivity|].
      rewrite (stored_leaf _ _ _ St). cbn [rbind].
      destruct l as [|x [|y l]]; cbn [new_leaf]; destruct (any_hit _ _ _) as [[]| |]; reflexivity.
    - destruct f as [|f]; [cbn in Hf; lia|]. cbn [ksize] in Hf |- *.
      destruct (stored_split _ _ _ _ _ _ St) as (E & Sb & Sc).
      cbn [kd_loop_p walk_p]. destruct (_ <? _).
      { exists f. split; [lia|reflexivity]. }
      rewrite E. cbn [rbind]. unfold split_step, child_order.
      fold (tsplit r a t). fold (below_first r a t).
      destruct (below_first r a t).
      + destruct (_ || _).
        { destruct (IHb f _ r todos t_min t_max Sb ltac:(lia)) as (f' & Hf' & ->). exists f'. split; [lia|reflexivity]. }
        destruct (_ <? _).
        { destruct (IHc f _ r todos t_min t_max Sc ltac:(lia)) as (f' & Hf' & ->). exists f'. split; [lia|reflexivity]. }
        destruct (IHb f _ r (mkTodo (n + 1 + Z.of_nat (ksize b)) (tsplit r a t) t_max :: todos) t_min (tsplit r a t) Sb ltac:(lia)) as (f1 & Hf1 & ->).
        destruct (walk_p b r t_min (tsplit r a t)) as [[x|]| |]; cbn [rbind resume_p td_node td_min td_max];
          try (exists f; split; [lia|reflexivity]).
        destruct (IHc f1 _ r todos (tsplit r a t) t_max Sc ltac:(lia)) as (f' & Hf' & ->). exists f'. split; [lia|reflexivity].
      + destruct (_ || _).
        { destruct (IHc f _ r todos t_min t_max Sc ltac:(lia)) as (f' & Hf' & ->). exists f'. split; [lia|reflexivity]. }
        destruct (_ <? _).
        { destruct (IHb f _ r todos t_min t_max Sb ltac:(lia)) as (f' & Hf' & ->). exists f'. split; [lia|reflexivity]. }
        destruct (IHc f _ r (mkTodo (n + 1) (tsplit r a t) t_max :: todos) t_min (tsplit r a t) Sc ltac:(lia)) as (f1 & Hf1 & ->).
        destruct (walk_p c r t_min (tsplit r a t)) as [[x|]| |]; cbn [rbind resume_p td_node td_min td_max];
          try (exists f; split; [lia|reflexivity]).
        destruct (IHb f1 _ r todos (tsplit r a t) t_max Sb ltac:(lia)) as (f' & Hf' & ->). exists f'. split; [lia|reflexivity].
  Qed.

  (** ** The whole query *)
  Variable srt : list (bedge F T) -> res (list (bedge F T)).

  Lemma kd_new_inv m l md kd : kd_new sh srt m l md = Ok kd ->
    bbox_of_shapes sh l = Ok (kd_bbox kd) /\
    exists k, built sh srt (Z.to_nat (match md with Some d => d | None => default_depth (F := F) (Z.of_nat (length l)) end)) l k /\
      kd_nodes kd = flatten 0 k.
  Proof.
    unfold kd_new. destruct (bbox_of_shapes sh l) as [b| |]; cbn [rbind]; try discriminate.
    destruct (kd_build _ _ _ _ _ _ _ _) as [ns| |] eqn:E; cbn [rbind]; try discriminate.
    intros H. injection H as <-. cbn [kd_bbox kd_nodes]. split; auto.
    apply kd_build_built in E as (k & B & ->). exists k. split; auto.
  Qed.

  Lemma kd_intersect_walk kd k r : kd_nodes kd = flatten 0 k ->
    kd_intersect sh kd r = match bbox_intersect (kd_bbox kd) r with
      | None => Ok None
      | Some (t0, t1) => rbind (walk k r None t0 t1) (fun x => Ok (snd x))
      end.
  Proof.
    intros E. unfold kd_intersect. destruct (bbox_intersect _ _) as [[t0 t1]|]; auto.
    rewrite E. destruct (kd_loop_walk (flatten 0 k) k (S (length (flatten 0 k))) 0%Z r None [] t0 t1) as (f' & _ & ->).
    { apply stored_root. }
    { rewrite flatten_length. lia. }
    destruct (walk k r None t0 t1) as [[[[] r'] i']| |]; reflexivity.
  Qed.

  Lemma kd_intersect_p_walk kd k r : kd_nodes kd = flatten 0 k ->
    kd_intersect_p sh kd r = match bbox_intersect (kd_bbox kd) r with
      | None => Ok false
      | Some (t0, t1) => rbind (walk_p k r t0 t1) (fun x => Ok (match x with Some b => b | None => false end))
      end.
  Proof.
    intros E. unfold kd_intersect_p. destruct (bbox_intersect _ _) as [[t0 t1]|]; auto.
    rewrite E. destruct (kd_loop_p_walk (flatten 0 k) k (S (length (flatten 0 k))) 0%Z r [] t0 t1) as (f' & _ & ->).
    { apply stored_root. }
    { rewrite flatten_length. lia. }
    destruct (walk_p k r t0 t1) as [[]| |]; reflexivity.
  Qed.

  (** more rounds do not change the answer of the loops *)
  Lemma kd_loop_rounds nodes k r t0 t1 f : nodes = flatten 0 k -> (ksize k <= f)%nat ->
    kd_loop sh nodes f r None [] 0 t0 t1 = rbind (walk k r None t0 t1) (fun x => Ok (snd x)).
  Proof.
    intros -> Hf. destruct (kd_loop_walk (flatten 0 k) k f 0%Z r None [] t0 t1 (stored_root k) Hf) as (f' & _ & ->).
    destruct (walk k r None t0 t1) as [[[[] r'] i']| |]; reflexivity.
  Qed.

  (** ** Soundness of the walk in any arithmetic *)
  Section Sound.
    Variable l0 : list T.
    Variable r0 : ray F.
    Definition sstate (r : ray F) (i : option (interaction F T)) : Prop :=
      shortened sh l0 r0 r /\
      match i with
      | None => True
      | Some j => exists s i t r', In s l0 /\ shortened sh l0 r0 r' /\ sh_intersect (sh s) r' = Ok (Some (i, t)) /\
                    j = i_with_shape i (Some s)
      end.

    Lemma shortened_od r : shortened sh l0 r0 r -> r_o r = r_o r0 /\ r_d r = r_d r0.
    Proof. destruct 1; auto. Qed.

    Lemma last_hit_sound l : (forall s, In s l -> In s l0) -> forall r i r' i',
      sstate r i -> last_hit sh l r i = Ok (i', r') -> sstate r' i'.
    Proof.
      induction l as [|s l IH]; intros Hl r i r' i' S; cbn [last_hit].
      - intros H. injection H as <- <-. exact S.
      - unfold shape_intersect. destruct (sh_intersect (sh s) r) as [[[j t]|]| |] eqn:E; cbn [rbind]; try discriminate.
        + apply IH; [auto with datatypes|]. destruct S as [S1 S2]. split.
          * unfold with_tmax. destruct (shortened_od r S1) as [-> ->]. eapply short_hit; eauto with datatypes.
          * exists s, j, t, r. auto with datatypes.
        + apply IH; auto with datatypes.
    Qed.

    Lemma walk_sound k : (forall s, kin s k -> In s l0) -> forall r i t0 t1 st r' i',
      sstate r i -> walk k r i t0 t1 = Ok (st, r', i') -> sstate r' i'.
    Proof.
      induction k as [l|a t b IHb c IHc]; intros Hk r i t0 t1 st r' i' S; cbn [walk].
      - destruct (_ <? _).
        { intros H. injection H as <- <- <-. exact S. }
        destruct (last_hit _ _ _ _) as [[j q]| |] eqn:E; cbn [rbind]; try discriminate.
        intros H. injection H as <- <- <-. eapply last_hit_sound; [|exact S|exact E]. exact Hk.
      - cbn [kin] in Hk. assert (Hb := fun s H => Hk s (or_introl H)). assert (Hc := fun s H => Hk s (or_intror H)).
        destruct (_ <? _).
        { intros H. injection H as <- <- <-. exact S. }
        destruct (_ || _); [destruct (below_first r a t); eauto|].
        destruct (_ <? _); [destruct (below_first r a t); eauto|].
        destruct (below_first r a t).
        + destruct (walk b r i t0 (tsplit r a t)) as [[[[] q] j]| |] eqn:E; cbn [rbind]; try discriminate.
          * intros H. injection H as <- <- <-. eauto.
          * apply (IHc Hc). eauto.
        + destruct (walk c r i t0 (tsplit r a t)) as [[[[] q] j]| |] eqn:E; cbn [rbind]; try discriminate.
          * intros H. injection H as <- <- <-. eauto.
          * apply (IHb Hb). eauto.
    Qed.

    Lemma any_hit_sound l r : any_hit sh l r = Ok true -> exists s, In s l /\ sh_intersect_p (sh s) r = Ok true.
    Proof.
      induction l as [|s l IH]; cbn [any_hit]; [discriminate|].
      destruct (sh_intersect_p (sh s) r) as [[]| |] eqn:E; cbn [rbind]; try discriminate.
      - intros _. exists s. auto with datatypes.
      - intros H. apply IH in H as (s' & H & H'). exists s'. auto with datatypes.
    Qed.

    Lemma walk_p_sound k : (forall s, kin s k -> In s l0) -> forall r t0 t1,
      walk_p k r t0 t1 = Ok (Some true) -> exists s, In s l0 /\ sh_intersect_p (sh s) r = Ok true.
    Proof.
      induction k as [l|a t b IHb c IHc]; intros Hk r t0 t1; cbn [walk_p].
      - destruct (_ <? _); [discriminate|]. destruct (any_hit _ _ _) as [[]| |] eqn:E; cbn [rbind]; try discriminate.
        intros _. apply any_hit_sound in E as (s & H & H'). exists s. auto.
      - cbn [kin] in Hk. assert (Hb := fun s H => Hk s (or_introl H)). assert (Hc := fun s H => Hk s (or_intror H)).
        destruct (_ <? _); [discriminate|].
        destruct (_ || _); [destruct (below_first r a t); eauto|].
        destruct (_ <? _); [destruct (below_first r a t); eauto|].
        destruct (below_first r a t).
        + destruct (walk_p b r t0 (tsplit r a t)) as [[x|]| |] eqn:E; cbn [rbind]; try discriminate; [|apply (IHc Hc)].
          intros H. injection H as ->. eauto.
        + destruct (walk_p c r t0 (tsplit r a t)) as [[x|]| |] eqn:E; cbn [rbind]; try discriminate; [|apply (IHb Hb)].
          intros H. injection H as ->. eauto.
    Qed.

    (** ** Totality: a query fails only if a shape does *)
    Variables (o d : V3 F).
    Hypothesis Hsh : forall s tm, In s l0 -> exists h, sh_intersect (sh s) (mkRay o d tm) = Ok h.
    Hypothesis Hshp : forall s tm, In s l0 -> exists h, sh_intersect_p (sh s) (mkRay o d tm) = Ok h.

    Lemma last_hit_total l : (forall s, In s l -> In s l0) -> forall tm i,
      exists i' tm', last_hit sh l (mkRay o d tm) i = Ok (i', mkRay o d tm').
    Proof.
      induction l as [|s l IH]; intros Hl tm i; cbn [last_hit]; [eauto|].
      unfold shape_intersect. destruct (Hsh s tm) as (h & ->); [auto with datatypes|]. cbn [rbind].
      destruct h as [[j t]|]; cbn [rbind]; apply IH; auto with datatypes.
    Qed.

    Lemma walk_total k : (forall s, kin s k -> In s l0) -> forall tm i t0 t1,
      exists st i' tm', walk k (mkRay o d tm) i t0 t1 = Ok (st, mkRay o d tm', i').
    Proof.
      induction k as [l|a t b IHb c IHc]; intros Hk tm i t0 t1; cbn [walk].
      - destruct (_ <? _); [eauto|]. destruct (last_hit_total l Hk tm i) as (i' & tm' & ->). cbn. eauto.
      - cbn [kin] in Hk. assert (Hb := fun s H => Hk s (or_introl H)). assert (Hc := fun s H => Hk s (or_intror H)).
        destruct (_ <? _); [eauto|].
        set (r := mkRay o d tm).
        destruct (_ || _); [destruct (below_first r a t); [apply (IHb Hb)|apply (IHc Hc)]|].
        destruct (_ <? _); [destruct (below_first r a t); [apply (IHc Hc)|apply (IHb Hb)]|].
        destruct (below_first r a t).
        + destruct (IHb Hb tm i t0 (tsplit r a t)) as (st & i' & tm' & E). fold r in E. rewrite E. cbn [rbind].
          destruct st; [eauto|apply (IHc Hc)].
        + destruct (IHc Hc tm i t0 (tsplit r a t)) as (st & i' & tm' & E). fold r in E. rewrite E. cbn [rbind].
          destruct st; [eauto|apply (IHb Hb)].
    Qed.

    Lemma any_hit_total l tm : (forall s, In s l -> In s l0) -> exists b, any_hit sh l (mkRay o d tm) = Ok b.
    Proof.
      induction l as [|s l IH]; intros Hl; cbn [any_hit]; [eauto|].
      destruct (Hshp s tm) as (h & ->); [auto with datatypes|]. cbn [rbind]. destruct h; [eauto|]. apply IH. auto with datatypes.
    Qed.

    Lemma walk_p_total k : (forall s, kin s k -> In s l0) -> forall tm t0 t1,
      exists x, walk_p k (mkRay o d tm) t0 t1 = Ok x.
    Proof.
      induction k as [l|a t b IHb c IHc]; intros Hk tm t0 t1; cbn [walk_p].
      - destruct (_ <? _); [eauto|]. destruct (any_hit_total l tm Hk) as (x & ->). cbn. eauto.
      - cbn [kin] in Hk. assert (Hb := fun s H => Hk s (or_introl H)). assert (Hc := fun s H => Hk s (or_intror H)).
        destruct (_ <? _); [eauto|].
        set (r := mkRay o d tm).
        destruct (_ || _); [destruct (below_first r a t); [apply (IHb Hb)|apply (IHc Hc)]|].
        destruct (_ <? _); [destruct (below_first r a t); [apply (IHc Hc)|apply (IHb Hb)]|].
        destruct (below_first r a t).
        + destruct (IHb Hb tm t0 (tsplit r a t)) as (x & E). fold r in E. rewrite E. cbn [rbind].
          destruct x; [eauto|apply (IHc Hc)].
        + destruct (IHc Hc tm t0 (tsplit r a t)) as (x & E). fold r in E. rewrite E. cbn [rbind].
          destruct x; [eauto|apply (IHb Hb)].
    Qed.
  End Sound.
End Any.
