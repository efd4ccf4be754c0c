(** Specification of the table / join stage, independent of the model. *)
From Coq Require Import List NArith Lia Bool Permutation Sorted.
From Verif Require Import JoinModel. (* only the types join_type and oline *)
Import ListNotations.

Section Spec.
Variable Key Row : Type.
Variable keqb : Key -> Key -> bool.
Variable key : Row -> Key.

(** Number of rows carrying key [k]. *)
Definition key_count (k : Key) (rows : list Row) : nat :=
  length (filter (fun r => keqb k (key r)) rows).

(** Distinct elements in order of first occurrence. *)
Fixpoint distinct (l : list Key) : list Key :=
  match l with
  | [] => []
  | x :: r => x :: filter (fun y => negb (keqb x y)) (distinct r)
  end.

(** The multiplicity an index list [(position, extra)] assigns to key [k], where a
    position points into the list [dk] of distinct keys; 0 if [k] is not listed. *)
Definition listed_mult (dk : list Key) (idx : list (N * N)) (k : Key) : nat :=
  match find (fun ip => match nth_error dk (N.to_nat (fst ip)) with
                        | Some k' => keqb k' k
                        | None => false
                        end) idx with
  | Some (_, p) => S (N.to_nat p)
  | None => 0
  end.

(** Rows repeated by multiplicity / rows of multiplicity zero, in table order. *)
Definition intersect_rows (mult : Key -> nat) (rows : list Row) : list Row :=
  flat_map (fun r => repeat r (mult (key r))) rows.
Definition except_rows (mult : Key -> nat) (rows : list Row) : list Row :=
  filter (fun r => Nat.eqb (mult (key r)) 0) rows.

(** A valid index list: strictly increasing positions below [n]. *)
Definition valid_index (n : nat) (idx : list (N * N)) : Prop :=
  StronglySorted N.lt (map fst idx) /\ Forall (fun ip => (fst ip < N.of_nat n)%N) idx.

End Spec.

Arguments key_count {Key Row} _ _ _ _.
Arguments distinct {Key} _ _.
Arguments listed_mult {Key} _ _ _ _.
Arguments intersect_rows {Key Row} _ _ _.
Arguments except_rows {Key Row} _ _ _.

(** SQL joins of two tables. *)
Section Sql.
Variable Key L R : Type.
Variable keqb : Key -> Key -> bool.
Variable lkey : L -> Key.
Variable rkey : R -> Key.

Definition sql_matched (ls : list L) (rs : list R) : list (option L * option R) :=
  flat_map (fun l => map (fun r => (Some l, Some r))
                         (filter (fun r => keqb (lkey l) (rkey r)) rs)) ls.
Definition sql_left_only (ls : list L) (rs : list R) : list (option L * option R) :=
  map (fun l => (Some l, None))
      (filter (fun l => negb (existsb (fun r => keqb (lkey l) (rkey r)) rs)) ls).
Definition sql_right_only (ls : list L) (rs : list R) : list (option L * option R) :=
  map (fun r => (None, Some r))
      (filter (fun r => negb (existsb (fun l => keqb (lkey l) (rkey r)) ls)) rs).
End Sql.

Arguments sql_matched {Key L R} _ _ _ _ _.
Arguments sql_left_only {Key L R} _ _ _ _ _.
Arguments sql_right_only {Key L R} _ _ _ _ _.

(** The exact result of PSI for a party with distinct keys [dk] (positions refer
    to this list) against the peer's rows: (position, peer multiplicity - 1). *)
Section Exact.
Variable Key Row : Type.
Variable keqb : Key -> Key -> bool.
Variable key : Row -> Key.
Fixpoint exact_index_from (i : N) (dk : list Key) (peer : list Row) : list (N * N) :=
  match dk with
  | [] => []
  | k :: r =>
    match key_count keqb key k peer with
    | O => exact_index_from (i + 1) r peer
    | S n => (i, N.of_nat n) :: exact_index_from (i + 1) r peer
    end
  end.
Definition exact_index (dk : list Key) (peer : list Row) : list (N * N) :=
  exact_index_from 0 dk peer.
End Exact.
Arguments exact_index {Key Row} _ _ _ _.
Arguments exact_index_from {Key Row} _ _ _ _ _.

(** Alignment of two outputs line by line. *)
Definition lines_match {Key L R : Type} (lkey : L -> Key) (rkey : R -> Key)
           (a : option L) (b : option R) : Prop :=
  match a, b with
  | Some x, Some y => lkey x = rkey y
  | None, None => False
  | _, _ => True
  end.

(** Data lines of an output file: [Some row] or the NULL line. *)
Definition body {Line : Type} (o : list (oline Line)) : list (option Line) :=
  map (fun x => match x with OLine l => Some l | _ => None end) (tl o).

(** The SQL join selected by the join type, left table first. *)
Definition sql_join {Key L R : Type} (keqb : Key -> Key -> bool) (lkey : L -> Key) (rkey : R -> Key)
           (t : join_type) (ls : list L) (rs : list R) : list (option L * option R) :=
  match t with
  | JInner => sql_matched keqb lkey rkey ls rs
  | JLeft => sql_matched keqb lkey rkey ls rs ++ sql_left_only keqb lkey rkey ls rs
  | JRight => sql_matched keqb lkey rkey ls rs ++ sql_right_only keqb lkey rkey ls rs
  | JFull => sql_matched keqb lkey rkey ls rs ++ sql_left_only keqb lkey rkey ls rs
             ++ sql_right_only keqb lkey rkey ls rs
  | JDifference => sql_left_only keqb lkey rkey ls rs ++ sql_right_only keqb lkey rkey ls rs
  end.

