(** * C91 in debug builds: when the random sampler answers *)
From Coq Require Import ZArith List Bool Lia.
From Verif Require Import Model.Num Model.Vector Model.Sampler Spec.SamplerSpec Spec.StreamSpec.
Import ListNotations.
Local Open Scope Z_scope.

(** how often a caller goes on to the next sample *)
Definition nexts (cs : list call) : Z := Z.of_nat (length (filter (fun c => match c with CNext => true | _ => false end) cs)).
(** every number is asked for within the first [spp] samples of the pixel *)
Definition in_time (spp : Z) (cs : list call) : Prop := forall a c b, cs = a ++ c :: b -> c <> CNext -> nexts a < spp.

Lemma nexts_cons c cs : nexts (c :: cs) = (match c with CNext => 1 | _ => 0 end) + nexts cs.
Proof. unfold nexts. cbn [filter]. destruct c; cbn [length]; lia. Qed.
Lemma nexts_pos cs : 0 <= nexts cs. Proof. unfold nexts. lia. Qed.

Section D.
  Context {F G : Type} (gen : G -> F * G).
  Notation sm := (random_ops gen Debug).

  Lemma in_time_cons spp i c cs : (forall a d b, c :: cs = a ++ d :: b -> d <> CNext -> i + nexts a < spp) <->
    (c <> CNext -> i < spp) /\ (forall a d b, cs = a ++ d :: b -> d <> CNext -> (i + match c with CNext => 1 | _ => 0 end) + nexts a < spp).
  Proof.
    split.
    - intros H. split.
      + intros N. pose proof (H [] c cs eq_refl N) as K. unfold nexts in K. cbn in K. lia.
      + intros a d b E N. pose proof (H (c :: a) d b ltac:(rewrite E; reflexivity) N) as K. rewrite nexts_cons in K. lia.
    - intros [H1 H2] [|e a] d b E N; cbn [app] in E; injection E as <- ->.
      + unfold nexts. cbn. specialize (H1 N). lia.
      + rewrite nexts_cons. specialize (H2 a d b eq_refl N). lia.
  Qed.

  Lemma all_in_time cs : forall s, 0 <= rs_index s -> rs_index s + nexts cs < 2 ^ 32 ->
    (forall a c b, cs = a ++ c :: b -> c <> CNext -> rs_index s + nexts a < rs_spp s) /\
      (exists al s', ask_all sm cs s = Ok (al, s') /\ rs_spp s' = rs_spp s /\ rs_index s' = rs_index s + nexts cs) \/
    ~ (forall a c b, cs = a ++ c :: b -> c <> CNext -> rs_index s + nexts a < rs_spp s) /\ ask_all sm cs s = Panic.
  Proof.
    induction cs as [|c cs IH]; intros s H0 H1.
    - left. split; [intros [|] ? ? E; discriminate|]. exists [], s. unfold nexts. cbn. repeat split. lia.
    - rewrite (in_time_cons (rs_spp s) (rs_index s) c cs). rewrite nexts_cons in H1 |- *. pose proof (nexts_pos cs) as P. cbn [ask_all].
      destruct c; cbn [ask random_ops sm_next_sample sm_get_1d sm_get_2d].
      + unfold random_next_sample. assert (U : u32_of Debug (rs_index s + 1) = Ok (rs_index s + 1)).
        { unfold u32_of, in_rangeb. destruct (Z.leb_spec 0 (rs_index s + 1)), (Z.leb_spec (rs_index s + 1) u32_max); unfold u32_max in *; try lia; reflexivity. }
        rewrite U. cbn [rbind]. destruct (IH (mkRS (rs_spp s) (rs_index s + 1) (rs_rng s))) as [(Q & al & s' & E & E1 & E2)|(Q & E)]; cbn [rs_index rs_spp] in *; try lia.
        * left. split; [split; [congruence|exact Q]|]. rewrite E. cbn [rbind]. eexists _, _. split; [reflexivity|]. split; [exact E1|lia].
        * right. split; [tauto|]. now rewrite E.
      + unfold random_get_1d, random_assert. destruct (Z.ltb_spec (rs_index s) (rs_spp s)) as [Li|Li]; cbn [rbind].
        * destruct (gen (rs_rng s)) as [x g]. cbn [rbind]. destruct (IH (mkRS (rs_spp s) (rs_index s) g)) as [(Q & al & s' & E & E1 & E2)|(Q & E)]; cbn [rs_index rs_spp] in *; try lia.
          -- left. rewrite Z.add_0_r. split; [split; [intros _; exact Li|exact Q]|]. rewrite E. cbn [rbind]. eexists _, _. split; [reflexivity|]. split; [exact E1|lia].
          -- right. rewrite Z.add_0_r. split; [tauto|]. now rewrite E.
        * right. split; [|reflexivity]. intros [K _]. specialize (K ltac:(discriminate)). lia.
      + unfold random_get_2d, random_assert. destruct (Z.ltb_spec (rs_index s) (rs_spp s)) as [Li|Li]; cbn [rbind].
        * destruct (gen (rs_rng s)) as [x g]. destruct (gen g) as [y g']. cbn [rbind]. destruct (IH (mkRS (rs_spp s) (rs_index s) g')) as [(Q & al & s' & E & E1 & E2)|(Q & E)]; cbn [rs_index rs_spp] in *; try lia.
          -- left. rewrite Z.add_0_r. split; [split; [intros _; exact Li|exact Q]|]. rewrite E. cbn [rbind]. eexists _, _. split; [reflexivity|]. split; [exact E1|lia].
          -- right. rewrite Z.add_0_r. split; [tauto|]. now rewrite E.
        * right. split; [|reflexivity]. intros [K _]. specialize (K ltac:(discriminate)). lia.
  Qed.
End D.

(** In a debug build a series of calls is answered exactly if for every pixel all numbers are asked for within the
    first [spp] samples; otherwise the program panics. *)
Theorem C91_debug_answers : forall F G (gen : G -> F * G) plan s,
  (forall p cs, In (p, cs) plan -> nexts cs < 2 ^ 32) ->
  ((exists al s', ask_plan (random_ops gen Debug) plan s = Ok (al, s')) <-> forall p cs, In (p, cs) plan -> in_time (rs_spp s) cs) /\
  (ask_plan (random_ops gen Debug) plan s = Panic <-> ~ forall p cs, In (p, cs) plan -> in_time (rs_spp s) cs).
Proof.
  intros F G gen plan s H.
  assert (A : (forall p cs, In (p, cs) plan -> in_time (rs_spp s) cs) /\ (exists al s', ask_plan (random_ops gen Debug) plan s = Ok (al, s')) \/
    ~ (forall p cs, In (p, cs) plan -> in_time (rs_spp s) cs) /\ ask_plan (random_ops gen Debug) plan s = Panic).
  { revert s. induction plan as [|[p cs] plan IH]; intros s; cbn [ask_plan]; [left; split; [intros ? ? []|eauto]|].
    cbn [random_ops sm_start_pixel]. unfold random_start_pixel. cbn [rbind].
    destruct (all_in_time gen cs (mkRS (rs_spp s) 0 (rs_rng s))) as [(Q & al & s1 & E & E1 & _)|(Q & E)]; cbn [rs_index rs_spp] in *; [lia|apply (H p); now left| |].
    - rewrite E. cbn [rbind]. destruct (IH (fun q ds I => H q ds (or_intror I)) s1) as [(K & bl & s2 & E2)|(K & E2)]; rewrite E2; cbn [rbind]; rewrite E1 in K.
      + left. split; [|eauto]. intros q ds [X|X]; [injection X as <- <-; exact Q|now apply (K q)].
      + right. split; [|reflexivity]. intros X. apply K. intros q ds I. apply (X q). now right.
    - rewrite E. cbn [rbind]. right. split; [|reflexivity]. intros X. apply Q. apply (X p). now left. }
  destruct A as [(A & al & s' & E)|(A & E)]; rewrite E; split; split; intros; try tauto; try discriminate; eauto; destruct H0 as (? & ? & ?); discriminate.
Qed.
Print Assumptions C91_debug_answers.

(** A caller that asks for numbers only as long as it is told that there are more samples is always answered. *)
Theorem C91_obedient : forall F G (gen : G -> F * G) p cs s s0 al s1,
  1 <= rs_spp s -> sm_start_pixel (random_ops gen Debug) s p = Ok s0 -> ask_all (random_ops gen Debug) cs s0 = Ok (al, s1) ->
  (forall b, In (ANext b) al -> b = true) ->
  (exists x s2, sm_get_1d (random_ops gen Debug) s1 = Ok (x, s2)) /\ (exists x s2, sm_get_2d (random_ops gen Debug) s1 = Ok (x, s2)).
Proof.
  intros F G gen p cs s s0 al s1 Hs E0 E1 Ht.
  assert (I : rs_index s1 < rs_spp s1).
  { cbn [random_ops sm_start_pixel] in E0. unfold random_start_pixel in E0. injection E0 as <-.
    assert (H0 : rs_index (mkRS (rs_spp s) 0 (rs_rng s)) < rs_spp (mkRS (rs_spp s) 0 (rs_rng s))) by (cbn; lia).
    revert H0 E1 Ht. generalize (mkRS (rs_spp s) 0 (rs_rng s)). clear. revert al. induction cs as [|c cs IH]; intros al s Hs E Ht; cbn [ask_all] in E.
    - injection E as <- <-. exact Hs.
    - destruct (ask (random_ops gen Debug) c s) as [[a s2]| |] eqn:Ea; try discriminate. cbn [rbind] in E.
      destruct (ask_all (random_ops gen Debug) cs s2) as [[bl s3]| |] eqn:Eb; try discriminate. cbn [rbind] in E. injection E as <- <-.
      apply (IH bl s2); auto; [|intros b Hb; apply Ht; now right].
      destruct c; cbn [ask random_ops sm_next_sample sm_get_1d sm_get_2d] in Ea.
      + unfold random_next_sample in Ea. destruct (u32_of Debug _) as [i| |]; try discriminate. cbn [rbind] in Ea. injection Ea as <- <-.
        specialize (Ht _ (or_introl eq_refl)). cbn. now apply Z.ltb_lt.
      + unfold random_get_1d, random_assert in Ea. rewrite (proj2 (Z.ltb_lt _ _) Hs) in Ea. cbn [rbind] in Ea. destruct (gen (rs_rng s)). cbn [rbind] in Ea. injection Ea as <- <-. exact Hs.
      + unfold random_get_2d, random_assert in Ea. rewrite (proj2 (Z.ltb_lt _ _) Hs) in Ea. cbn [rbind] in Ea. destruct (gen (rs_rng s)) as [x g]. destruct (gen g). cbn [rbind] in Ea. injection Ea as <- <-. exact Hs. }
  cbn [random_ops sm_get_1d sm_get_2d]. unfold random_get_1d, random_get_2d, random_assert. rewrite (proj2 (Z.ltb_lt _ _) I). cbn [rbind].
  destruct (gen (rs_rng s1)) as [x g]. destruct (gen g) as [y g']. split; eauto.
Qed.
Print Assumptions C91_obedient.

(** Two samples per pixel: numbers for the second sample are handed out, a third makes the program panic. *)
Example C91_debug_example :
  (exists al s', ask_plan (random_ops (F := nat) (numbered (fun n => n)) Debug) [(mkP2 0 0, [C2D; CNext; C1D; CNext])] (random_new 2 0%nat) = Ok (al, s') /\
     al = [A2D (mkP2 0 1); ANext true; A1D 2; ANext false]%nat) /\
  ask_plan (random_ops (F := nat) (numbered (fun n => n)) Debug) [(mkP2 0 0, [C2D; CNext; C1D; CNext; C1D])] (random_new 2 0%nat) = Panic /\
  ~ in_time 2 [C2D; CNext; C1D; CNext; C1D].
Proof.
  split; [eexists _, _; split; reflexivity|]. split; [reflexivity|].
  intros H. specialize (H [C2D; CNext; C1D; CNext] C1D [] eq_refl ltac:(discriminate)). unfold nexts in H. cbn in H. lia.
Qed.
