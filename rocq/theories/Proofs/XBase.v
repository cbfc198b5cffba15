(** * Working with exact arithmetic *)
From Coq Require Import ZArith Reals Bool List Lra Lia.
From Flocq Require Import Core.Raux Core.Zaux Core.Generic_fmt.
From Verif Require Import Model.Num Model.NumX Model.Vector.
Import ListNotations.
Local Open Scope R_scope.

(** ** Comparisons as propositions *)
Lemma Rlt_bool_iff x y : Rlt_bool x y = true <-> x < y.
Proof. split; [case Rlt_bool_spec; congruence|apply Rlt_bool_true]. Qed.
Lemma Rlt_bool_niff x y : Rlt_bool x y = false <-> y <= x.
Proof. split; [case Rlt_bool_spec; congruence|apply Rlt_bool_false]. Qed.
Lemma Rle_bool_iff x y : Rle_bool x y = true <-> x <= y.
Proof. split; [case Rle_bool_spec; congruence|apply Rle_bool_true]. Qed.
Lemma Rle_bool_niff x y : Rle_bool x y = false <-> y < x.
Proof. split; [case Rle_bool_spec; congruence|apply Rle_bool_false]. Qed.
Lemma Req_bool_iff x y : Req_bool x y = true <-> x = y.
Proof. split; [case Req_bool_spec; congruence|apply Req_bool_true]. Qed.
Lemma Req_bool_niff x y : Req_bool x y = false <-> x <> y.
Proof. split; [case Req_bool_spec; congruence|apply Req_bool_false]. Qed.

(** Turn boolean hypotheses and goals about reals into propositions. *)
Ltac rb :=
  repeat match goal with
  | H : Rlt_bool _ _ = true |- _ => apply Rlt_bool_iff in H
  | H : Rlt_bool _ _ = false |- _ => apply Rlt_bool_niff in H
  | H : Rle_bool _ _ = true |- _ => apply Rle_bool_iff in H
  | H : Rle_bool _ _ = false |- _ => apply Rle_bool_niff in H
  | H : Req_bool _ _ = true |- _ => apply Req_bool_iff in H
  | H : Req_bool _ _ = false |- _ => apply Req_bool_niff in H
  | |- Rlt_bool _ _ = true => apply Rlt_bool_iff
  | |- Rlt_bool _ _ = false => apply Rlt_bool_niff
  | |- Rle_bool _ _ = true => apply Rle_bool_iff
  | |- Rle_bool _ _ = false => apply Rle_bool_niff
  | |- Req_bool _ _ = true => apply Req_bool_iff
  | |- Req_bool _ _ = false => apply Req_bool_niff
  end.

(** ** Arithmetic on finite numbers *)
Lemma xdiv_fin x y : y <> 0 -> xdiv (XFin x) (XFin y) = XFin (x / y).
Proof. intros H. simpl. now rewrite Req_bool_false. Qed.

Lemma xsqrt_fin x : 0 <= x -> xsqrt (XFin x) = XFin (sqrt x).
Proof. intros H. simpl. now rewrite Rlt_bool_false. Qed.

Lemma xdiv_zero_pos x : 0 < x -> xdiv (XFin x) (XFin 0) = XInf false.
Proof. intros H. simpl. rewrite Req_bool_true by auto. rewrite Req_bool_false by lra. unfold Rsgn. now rewrite Rlt_bool_false by lra. Qed.
Lemma xdiv_zero_neg x : x < 0 -> xdiv (XFin x) (XFin 0) = XInf true.
Proof. intros H. simpl. rewrite Req_bool_true by auto. rewrite Req_bool_false by lra. unfold Rsgn. now rewrite Rlt_bool_true by lra. Qed.
Lemma xdiv_zero_zero : xdiv (XFin 0) (XFin 0) = XNaN.
Proof. simpl. now rewrite !Req_bool_true. Qed.

Lemma xadd_comm a b : xadd a b = xadd b a.
Proof. destruct a as [|[]|x], b as [|[]|y]; simpl; auto. f_equal; lra. Qed.

Lemma xadd_assoc a b c : xadd a (xadd b c) = xadd (xadd a b) c.
Proof. destruct a as [|[]|x], b as [|[]|y], c as [|[]|z]; simpl; auto. f_equal; lra. Qed.

Lemma xadd_0_l a : xadd (XFin 0) a = a.
Proof. destruct a; simpl; auto. f_equal; lra. Qed.

Lemma xadd_0_r a : xadd a (XFin 0) = a.
Proof. rewrite xadd_comm. apply xadd_0_l. Qed.

Lemma xmul_comm a b : xmul a b = xmul b a.
Proof.
  destruct a as [|s|x], b as [|t|y]; simpl; auto.
  - now rewrite xorb_comm.
  - f_equal; lra.
Qed.

(** ** Order *)
Lemma xlt_irrefl a : xlt a a = false.
Proof. destruct a as [|[]|x]; simpl; auto. rb. lra. Qed.

Lemma xle_refl a : xis_nan a = false -> xle a a = true.
Proof. destruct a as [|[]|x]; simpl; auto; try discriminate. intros _. rb. lra. Qed.

Lemma xle_trans a b c : xle a b = true -> xle b c = true -> xle a c = true.
Proof. destruct a as [|[]|x], b as [|[]|y], c as [|[]|z]; simpl; auto; try discriminate. intros. rb. lra. Qed.

Lemma xlt_le a b : xlt a b = true -> xle a b = true.
Proof. destruct a as [|[]|x], b as [|[]|y]; simpl; auto; try discriminate. intros. rb. lra. Qed.

Lemma xlt_nan_l a b : xlt a b = true -> xis_nan a = false /\ xis_nan b = false.
Proof. destruct a as [|[]|x], b as [|[]|y]; simpl; auto; discriminate. Qed.
Lemma xle_nan_l a b : xle a b = true -> xis_nan a = false /\ xis_nan b = false.
Proof. destruct a as [|[]|x], b as [|[]|y]; simpl; auto; discriminate. Qed.

Lemma xlt_not_le a b : xis_nan a = false -> xis_nan b = false -> xlt a b = negb (xle b a).
Proof.
  destruct a as [|[]|x], b as [|[]|y]; simpl; auto; try discriminate. intros _ _.
  destruct (Rlt_bool x y) eqn:E, (Rle_bool y x) eqn:E2; auto; rb; lra.
Qed.

Lemma xle_antisym a b : xle a b = true -> xle b a = true -> a = b.
Proof. destruct a as [|[]|x], b as [|[]|y]; simpl; auto; try discriminate. intros. rb. f_equal; lra. Qed.

Lemma xlt_trans a b c : xlt a b = true -> xlt b c = true -> xlt a c = true.
Proof. destruct a as [|[]|x], b as [|[]|y], c as [|[]|z]; simpl; auto; try discriminate. intros. rb. lra. Qed.

Lemma xlt_le_trans a b c : xlt a b = true -> xle b c = true -> xlt a c = true.
Proof. destruct a as [|[]|x], b as [|[]|y], c as [|[]|z]; simpl; auto; try discriminate. intros. rb. lra. Qed.

Lemma xle_lt_trans a b c : xle a b = true -> xlt b c = true -> xlt a c = true.
Proof. destruct a as [|[]|x], b as [|[]|y], c as [|[]|z]; simpl; auto; try discriminate. intros. rb. lra. Qed.

(** ** Finite vectors *)
Definition fin3 (v : V3 R) : V3 XR := mkV3 (XFin (vx v)) (XFin (vy v)) (XFin (vz v)).

(** Unfold the [FOps XR] operations. *)
Ltac xsimp := cbn [fadd fsub fmul fdiv fneg fabs fsqrt flt fle feq fis_nan fis_inf fofZ finf feps
  fmaxv fpi ffloor fceil fround fto_int fnext_up fnext_down fsin fcos ftan fatan facos fatan2 fexp
  fln fpowf XR_FOps fwiden fnarrow XR_Link].
Ltac xsimpin H := cbn [fadd fsub fmul fdiv fneg fabs fsqrt flt fle feq fis_nan fis_inf fofZ finf feps
  fmaxv fpi ffloor fceil fround fto_int fnext_up fnext_down fsin fcos ftan fatan facos fatan2 fexp
  fln fpowf XR_FOps fwiden fnarrow XR_Link] in H.
