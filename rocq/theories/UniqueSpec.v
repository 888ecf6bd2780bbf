(** What [unique2d] has to return, stated without reference to its code. *)
From Verif Require Import Prelude ArraySpec UniqueModel.

(** [U] is the sorted list of the values occurring in the rows. *)
Definition sorted_values (data : list (list Z)) (U : list Z) : Prop :=
  StronglySorted Z.lt U /\ forall v, In v U <-> exists row, In row data /\ In v row.

(** [counts[k]] is the number of occurrences of [U[k]]. *)
Definition occurrence_counts (data : list (list Z)) (U : list Z) (counts : list nat) : Prop :=
  length counts = length U /\
  forall k u, nth_error U k = Some u -> nth_error counts k = Some (count_occ Z.eq_dec (concat data) u).

(** [U[inverse]] is the input. *)
Definition rebuilds (data : list (list Z)) (U : list Z) (inverse : list (list nat)) : Prop :=
  map (map (fun k => nth_error U k)) inverse = map (map Some) data.

(** The dictionary has the keys [U], and under each key the increasing list of
    the places at which that value sits. *)
Definition lists_places {P} (places : Z -> P -> Prop) (before : P -> P -> Prop)
           (U : list Z) (d : dict (arr P)) : Prop :=
  (forall u, In u U -> exists n a, dget d u = Some (n, a) /\
      StronglySorted before (tolist n a) /\ forall p, In p (tolist n a) <-> places u p) /\
  (forall u, ~ In u U -> dget d u = None).

(** Places of a value in a 2d array, and in the flattened array. *)
Definition place_2d (data : list (list Z)) (v : Z) (p : nat * nat) : Prop :=
  exists row, nth_error data (fst p) = Some row /\ nth_error row (snd p) = Some v.
Definition place_flat (data : list (list Z)) (v : Z) (f : nat) : Prop :=
  nth_error (concat data) f = Some v.

(** The optional outputs, in the documented order. *)
Definition outputs (U ix iv ct : output) (ri rv rc : bool) : unique_result :=
  match ri, rv, rc with
  | false, false, false => Bare U
  | true, false, false => Many [U; ix]
  | false, true, false => Many [U; iv]
  | false, false, true => Many [U; ct]
  | true, true, false => Many [U; ix; iv]
  | true, false, true => Many [U; ix; ct]
  | false, true, true => Many [U; iv; ct]
  | true, true, true => Many [U; ix; iv; ct]
  end.
