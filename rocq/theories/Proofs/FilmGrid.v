(** * Pixel arrays as grids: the film's and the tiles' row-major storage *)
From Coq Require Import ZArith List Bool Lia ZifyBool Sorting.Sorted.
From Verif Require Import Model.Num Model.Vector Model.BBox Model.Film Spec.Grid Proofs.Iter.
Import ListNotations.
Local Open Scope Z_scope.

(** ** Folds that succeed *)
Lemma rfold_inv {A S} (P : S -> Prop) (f : S -> A -> res S) l s :
  (forall s a, In a l -> P s -> exists s', f s a = Ok s' /\ P s') -> P s ->
  exists s', rfold f l s = Ok s' /\ P s'.
Proof.
  revert s. induction l as [|a l IH]; intros s Hf Hs; simpl.
  - eauto.
  - destruct (Hf s a) as (s1 & -> & H1); [now left|auto|]. simpl.
    apply IH; auto. intros s' a' Ha. apply Hf. now right.
Qed.

Lemma rfold_app {A S} (f : S -> A -> res S) l1 l2 s :
  rfold f (l1 ++ l2) s = (let! s1 := rfold f l1 s in rfold f l2 s1).
Proof.
  revert s. induction l1 as [|a l1 IH]; intros s; simpl; auto.
  destruct (f s a); simpl; auto.
Qed.

Lemma rfold_map {A B S} (g : A -> B) (f : S -> B -> res S) l s :
  rfold f (map g l) s = rfold (fun s a => f s (g a)) l s.
Proof. revert s. induction l as [|a l IH]; intros s; simpl; auto. destruct (f s (g a)); simpl; auto. Qed.

Lemma rfold_ext {A S} (f g : S -> A -> res S) l s :
  (forall s a, In a l -> f s a = g s a) -> rfold f l s = rfold g l s.
Proof.
  revert s. induction l as [|a l IH]; intros s H; simpl; auto.
  rewrite H by now left. destruct (g s a); simpl; auto. apply IH. intros; apply H. now right.
Qed.

(** A nested loop over rows and columns is a loop over the points of the rectangle. *)
Lemma rfold_rows {S} (f : S -> Z -> Z -> res S) x0 x1 y0 y1 s :
  rfold (fun s y => rfold (fun s x => f s x y) (zrange x0 x1) s) (zrange y0 y1) s =
  rfold (fun s p => f s (px p) (py p)) (rows x0 x1 y0 y1) s.
Proof.
  unfold rows. revert s. induction (zrange y0 y1) as [|y l IH]; intros s; simpl; auto.
  rewrite rfold_app. unfold row. rewrite rfold_map. simpl.
  destruct (rfold _ (zrange x0 x1) s); simpl; auto.
Qed.

(** ** Lists *)
Lemma set_nth_length {A} (l : list A) n a : length (set_nth l n a) = length l.
Proof. revert n. induction l as [|x l IH]; intros [|n]; simpl; auto. Qed.

Lemma nth_error_set_nth {A} (l : list A) n m a : (n < length l)%nat ->
  nth_error (set_nth l n a) m = if Nat.eq_dec n m then Some a else nth_error l m.
Proof.
  revert n m. induction l as [|x l IH]; intros [|n] [|m] H; simpl in *; try lia; auto.
  rewrite IH by lia. destruct (Nat.eq_dec n m), (Nat.eq_dec (S n) (S m)); auto; lia.
Qed.

Lemma idx_ok {A} (l : list A) i : 0 <= i < Z.of_nat (length l) -> exists a, idx l i = Ok a /\ nth_error l (Z.to_nat i) = Some a.
Proof.
  intros H. unfold idx. replace (i <? 0) with false by lia.
  destruct (nth_error l (Z.to_nat i)) as [a|] eqn:E; eauto.
  exfalso. apply nth_error_None in E. lia.
Qed.

Lemma idx_inv {A} (l : list A) i a : idx l i = Ok a -> 0 <= i < Z.of_nat (length l) /\ nth_error l (Z.to_nat i) = Some a.
Proof.
  unfold idx. destruct (i <? 0) eqn:E; try discriminate.
  destruct (nth_error l (Z.to_nat i)) eqn:E2; try discriminate. intros [= ->].
  assert (Z.to_nat i < length l)%nat by (apply nth_error_Some; congruence). split; auto. lia.
Qed.

Lemma upd_ok {A} (l : list A) i f : 0 <= i < Z.of_nat (length l) ->
  exists a, nth_error l (Z.to_nat i) = Some a /\ upd l i f = Ok (set_nth l (Z.to_nat i) (f a)).
Proof. intros H. unfold upd. destruct (idx_ok l i H) as (a & -> & E). exists a. auto. Qed.

(** ** Grids *)
Definition p2_eq_dec (p q : P2 Z) : {p = q} + {p <> q}.
Proof. decide equality; apply Z.eq_dec. Defined.

Definition goff (b : bbox2) (p : P2 Z) : Z :=
  (px (b2max b) - px (b2min b)) * (py p - py (b2min b)) + (px p - px (b2min b)).

Definition gsize (b : bbox2) : Z := (px (b2max b) - px (b2min b)) * (py (b2max b) - py (b2min b)).

(** The content of the cell for point [p]. *)
Definition gget {A} (b : bbox2) (l : list A) (p : P2 Z) : option A := nth_error l (Z.to_nat (goff b p)).

Lemma goff_range b p : in_rect b p -> 0 <= goff b p < gsize b.
Proof. unfold in_rect, goff, gsize. intros [Hx Hy]. nia. Qed.

Lemma goff_inj b p q : in_rect b p -> in_rect b q -> goff b p = goff b q -> p = q.
Proof.
  unfold in_rect, goff. intros [Hx Hy] [Hx' Hy'] H. destruct p as [x y], q as [x' y']. simpl in *.
  assert (y = y') by nia. subst. f_equal. lia.
Qed.

Lemma gget_some {A} b (l : list A) p : in_rect b p -> Z.of_nat (length l) = gsize b -> exists a, gget b l p = Some a.
Proof.
  intros Hp Hl. apply goff_range in Hp. unfold gget.
  destruct (nth_error l (Z.to_nat (goff b p))) eqn:E; eauto. apply nth_error_None in E. lia.
Qed.

Lemma gupd {A} b (l : list A) p f : in_rect b p -> Z.of_nat (length l) = gsize b ->
  exists l', upd l (goff b p) f = Ok l' /\ length l' = length l /\
    forall q, in_rect b q -> gget b l' q = if p2_eq_dec q p then option_map f (gget b l q) else gget b l q.
Proof.
  intros Hp Hl. pose proof (goff_range b p Hp) as Ho.
  destruct (upd_ok l (goff b p) f) as (a & Ea & ->); [lia|].
  eexists; split; [reflexivity|]. split; [apply set_nth_length|].
  intros q Hq. pose proof (goff_range b q Hq) as Hoq. unfold gget.
  rewrite nth_error_set_nth by lia.
  destruct (Nat.eq_dec _ _) as [E|E]; destruct (p2_eq_dec q p) as [E2|E2].
  - subst q. now rewrite Ea.
  - exfalso. apply E2. symmetry. apply (goff_inj b); auto. lia.
  - subst q. congruence.
  - reflexivity.
Qed.

Lemma gupd_fold {A} b (f : P2 Z -> A -> A) pts (l : list A) :
  NoDup pts -> (forall p, In p pts -> in_rect b p) -> Z.of_nat (length l) = gsize b ->
  exists l', rfold (fun l p => upd l (goff b p) (f p)) pts l = Ok l' /\ length l' = length l /\
    forall q, in_rect b q -> gget b l' q = if in_dec p2_eq_dec q pts then option_map (f q) (gget b l q) else gget b l q.
Proof.
  revert l. induction pts as [|p pts IH]; intros l ND Hin Hl; cbn [rfold].
  - exists l. auto.
  - inversion ND as [|? ? Hn ND']; subst.
    destruct (gupd b l p (f p)) as (l1 & -> & Hl1 & G1); [apply Hin; now left|auto|]. cbn [rbind].
    destruct (IH l1) as (l2 & -> & Hl2 & G2); [auto|intros; apply Hin; now right|congruence|].
    exists l2. split; [auto|]. split; [congruence|]. intros q Hq. rewrite G2, G1 by auto.
    destruct (in_dec p2_eq_dec q pts), (in_dec p2_eq_dec q (p :: pts)), (p2_eq_dec q p); subst; auto; simpl in *;
      try contradiction; intuition congruence.
Qed.

(** Every cell belongs to a point of the rectangle. *)
Lemma goff_surj b n : 0 <= px (b2max b) - px (b2min b) -> 0 <= n < gsize b ->
  exists p, in_rect b p /\ goff b p = n.
Proof.
  intros Hw Hn. set (w := px (b2max b) - px (b2min b)) in *.
  assert (Hw0 : 0 < w).
  { destruct (Z.eq_dec w 0) as [E|]; [|lia]. unfold gsize in Hn. fold w in Hn. rewrite E in Hn. lia. }
  exists (mkP2 (px (b2min b) + n mod w) (py (b2min b) + n / w)). split.
  - unfold in_rect; cbn [px py].
    pose proof (Z.mod_pos_bound n w ltac:(lia)).
    pose proof (Z.div_pos n w ltac:(lia) ltac:(lia)).
    assert (n / w < py (b2max b) - py (b2min b)).
    { apply Z.div_lt_upper_bound; [lia|]. unfold gsize in Hn; fold w in Hn. lia. }
    unfold w in *. lia.
  - unfold goff; cbn [px py]. fold w.
    replace (py (b2min b) + n / w - py (b2min b)) with (n / w) by lia.
    replace (px (b2min b) + n mod w - px (b2min b)) with (n mod w) by lia.
    symmetry. apply Z.div_mod. lia.
Qed.

(** The whole-list view: two lists with the same length and cells are equal. *)
Lemma gget_ext {A} b (l l' : list A) : 0 <= px (b2max b) - px (b2min b) ->
  Z.of_nat (length l) = gsize b -> Z.of_nat (length l') = gsize b ->
  (forall p, in_rect b p -> gget b l p = gget b l' p) -> l = l'.
Proof.
  intros Hw Hl Hl' H.
  assert (E : forall n, nth_error l n = nth_error l' n).
  { intros n. destruct (Z_lt_dec (Z.of_nat n) (gsize b)) as [Hn|Hn].
    - destruct (goff_surj b (Z.of_nat n) Hw ltac:(lia)) as (p & Hp & Eo).
      specialize (H p Hp). unfold gget in H. now rewrite Eo, Nat2Z.id in H.
    - assert (length l <= n)%nat by lia. assert (length l' <= n)%nat by lia.
      rewrite (proj2 (nth_error_None _ _)), (proj2 (nth_error_None _ _)); auto. }
  clear - E. revert l' E. induction l as [|a l IH]; intros [|a' l'] E; auto.
  - specialize (E 0%nat); discriminate.
  - specialize (E 0%nat); discriminate.
  - f_equal. + specialize (E 0%nat). simpl in E. congruence. + apply IH. intros n. apply (E (S n)).
Qed.

(** A property of all cells is a property of all elements. *)
Lemma gget_all {A} (G : A -> Prop) b (l : list A) : 0 <= px (b2max b) - px (b2min b) ->
  Z.of_nat (length l) = gsize b ->
  (forall q c, in_rect b q -> gget b l q = Some c -> G c) -> forall c, In c l -> G c.
Proof.
  intros Hw Hl H c Hc. destruct (In_nth_error _ _ Hc) as (n & Hn).
  assert (n < length l)%nat by (apply nth_error_Some; congruence).
  destruct (goff_surj b (Z.of_nat n) Hw ltac:(lia)) as (p & Hp & Eo).
  apply (H p c Hp). unfold gget. now rewrite Eo, Nat2Z.id.
Qed.
