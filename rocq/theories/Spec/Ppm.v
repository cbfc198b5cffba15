(** * Specification: plain PPM files, and pixels as weighted means *)
From Coq Require Import ZArith List Bool Ascii Reals.
From Verif Require Import Model.Num Model.NumX Model.Vector Model.Film.
Import ListNotations.

(** ** A parser for plain PPM (P3) written from the format description: white-space separated
    tokens: the magic number, width, height, maximal value, then the samples. *)
Definition is_space (c : ascii) : bool :=
  (Ascii.eqb c " " || Ascii.eqb c "010" || Ascii.eqb c "013" || Ascii.eqb c "009")%char.

(** Splits at white space; [cur] is the token being read, reversed. *)
Fixpoint tokens_from (cur : list ascii) (l : list ascii) : list (list ascii) :=
  match l with
  | [] => match cur with [] => [] | _ => [rev cur] end
  | c :: l =>
    if is_space c then match cur with [] => tokens_from [] l | _ => rev cur :: tokens_from [] l end
    else tokens_from (c :: cur) l
  end.
Definition tokens : list ascii -> list (list ascii) := tokens_from [].

Definition digit_value (c : ascii) : option Z :=
  let n := Z.of_nat (nat_of_ascii c) in
  if ((48 <=? n) && (n <=? 57))%Z then Some (n - 48)%Z else None.

Fixpoint number_from (acc : Z) (l : list ascii) : option Z :=
  match l with
  | [] => Some acc
  | c :: l => match digit_value c with Some d => number_from (10 * acc + d)%Z l | None => None end
  end.
(** Decimal numbers have at least one digit. *)
Definition number (l : list ascii) : option Z :=
  match l with [] => None | _ => number_from 0 l end.

Fixpoint triples (l : list (list ascii)) : option (list (Z * Z * Z)) :=
  match l with
  | [] => Some []
  | r :: g :: b :: l =>
    match number r, number g, number b, triples l with
    | Some r, Some g, Some b, Some l => Some ((r, g, b) :: l)
    | _, _, _, _ => None
    end
  | _ => None
  end.

Record image := mkImage { im_w : Z; im_h : Z; im_max : Z; im_data : list (Z * Z * Z) }.

Definition parse_ppm (bytes : list ascii) : option image :=
  match tokens bytes with
  | [ "P"; "3" ]%char :: w :: h :: mx :: data =>
    match number w, number h, number mx, triples data with
    | Some w, Some h, Some mx, Some data => Some (mkImage w h mx data)
    | _, _, _, _ => None
    end
  | _ => None
  end.

(** A complete image: as many triples as pixels, all in range. *)
Definition well_formed (i : image) : Prop :=
  (0 <= im_w i /\ 0 <= im_h i /\ Z.of_nat (length (im_data i)) = im_w i * im_h i /\
   forall r g b, In (r, g, b) (im_data i) -> (0 <= r <= im_max i) /\ (0 <= g <= im_max i) /\ (0 <= b <= im_max i))%Z.

(** ** Histories of a pixel *)
Inductive history : Type :=
| HNew
| HAdd (h : history) (l : V3 R) (w : R)
| HMerge (h h' : history).

(** The samples (radiance and weight) that reached the pixel. *)
Fixpoint reached (h : history) : list (V3 R * R) :=
  match h with
  | HNew => []
  | HAdd h l w => (l, w) :: reached h
  | HMerge h h' => reached h ++ reached h'
  end.

Definition total (f : V3 R * R -> R) (l : list (V3 R * R)) : R := fold_right Rplus 0%R (map f l).

(** What the code computes along the history. *)
Fixpoint run_history (h : history) : pixel XR :=
  match h with
  | HNew => pixel_default
  | HAdd h l w => pixel_add_sample (run_history h) (mkV3 (XFin (vx l)) (XFin (vy l)) (XFin (vz l))) (XFin w)
  | HMerge h h' => pixel_merge (run_history h) (run_history h')
  end.

(** A colour channel *)
Inductive chan := CR | CG | CB.
Definition sel {F} (c : chan) (v : V3 F) : F := match c with CR => vx v | CG => vy v | CB => vz v end.

(** ** What is asked of the platform's math library *)
Section Libm.
  Context {F} {FO : FOps F}.
  (** powf with the exponent 1/2.4, above 0.0031308 *)
  Record good_powf : Prop := {
    gp_mono : forall v v', flt (flit 31308 7) v = true -> fle v v' = true ->
      fle (fpowf v (fdiv f1 (flit 24 1))) (fpowf v' (fdiv f1 (flit 24 1))) = true;
    gp_knee : forall v, flt (flit 31308 7) v = true ->
      fle (fdiv (fofZ 1475) (fofZ 16384)) (fpowf v (fdiv f1 (flit 24 1))) = true;
    gp_one : forall v, fle f1 v = true -> fle f1 (fpowf v (fdiv f1 (flit 24 1))) = true }.
  (** exp of a number that is not positive *)
  Definition good_exp : Prop := forall x, fle x f0 = true -> fle f0 (fexp x) = true /\ fle (fexp x) f1 = true.
End Libm.
Arguments good_powf F {FO}.
Arguments good_exp F {FO}.

(** The Gaussian filter, cut off at the radius *)
Definition gauss (alpha r d : R) : R := Rmax 0 (exp (- alpha * (d * d)) - exp (- alpha * (r * r))).
