(** * A stable sort with the promise of [slice::sort_by] *)
From Coq Require Import List Permutation Sorted.
From Verif Require Import Model.Num Spec.KdSpec.
Import ListNotations.

Section I.
  Context {A : Type}.
  Variable cmp : A -> A -> comparison.

  Fixpoint insert (x : A) (l : list A) : list A :=
    match l with
    | [] => [x]
    | y :: l' => match cmp x y with Gt => y :: insert x l' | _ => x :: l end
    end.
  Definition isort (l : list A) : list A := fold_right insert [] l.

  Lemma insert_perm x l : Permutation (x :: l) (insert x l).
  Proof.
    induction l as [|y l IH]; cbn [insert]; auto.
    destruct (cmp x y); auto. eapply perm_trans; [apply perm_swap|]. now apply perm_skip.
  Qed.
  Lemma isort_perm l : Permutation l (isort l).
  Proof.
    induction l as [|x l IH]; cbn [isort fold_right]; auto.
    eapply perm_trans; [apply perm_skip, IH|]. apply insert_perm.
  Qed.

  Lemma insert_sorted x l : total_cmp cmp (x :: l) -> StronglySorted (fun a b => cmp a b <> Gt) l ->
    StronglySorted (fun a b => cmp a b <> Gt) (insert x l).
  Proof.
    induction l as [|y l IH]; intros [Anti Tr] S; cbn [insert]; [repeat constructor|].
    inversion S as [|? ? S' Fy]; subst. rewrite Forall_forall in Fy.
    assert (Up : cmp x y <> Gt -> StronglySorted (fun a b => cmp a b <> Gt) (x :: y :: l)).
    { intros H. constructor; auto. apply Forall_forall. intros z [<-|Hz]; auto.
      apply (Tr x y z); auto with datatypes. }
    destruct (cmp x y) eqn:E; try (apply Up; discriminate).
    constructor.
    - apply IH; auto. split.
      + intros a b Ha Hb. apply Anti; cbn in *; tauto.
      + intros a b c Ha Hb Hc. apply Tr; cbn in *; tauto.
    - apply Forall_forall. intros z Hz.
      apply (Permutation_in _ (Permutation_sym (insert_perm x l))) in Hz as [<-|Hz]; auto.
      rewrite (Anti y x) by auto with datatypes. rewrite E. discriminate.
  Qed.

  Lemma isort_ok : sort_by_ok cmp (fun l => Ok (isort l)).
  Proof.
    intros l. split; [discriminate|]. split.
    - intros l' H. injection H as <-. apply isort_perm.
    - intros Tot. exists (isort l). split; auto. induction l as [|x l IH]; cbn [isort fold_right]; [constructor|].
      assert (P := isort_perm l). apply insert_sorted.
      + destruct Tot as [Anti Tr]. fold (isort l).
        assert (I : forall y, In y (x :: isort l) -> In y (x :: l)).
        { intros y [<-|Hy]; [now left|]. right. eapply Permutation_in; [apply Permutation_sym, P|exact Hy]. }
        split; [intros a b Ha Hb|intros a b c Ha Hb Hc]; auto.
        apply Tr; auto.
      + apply IH. destruct Tot as [Anti Tr]. split; [intros a b Ha Hb|intros a b c Ha Hb Hc].
        * apply Anti; now right.
        * apply Tr; now right.
  Qed.
End I.
