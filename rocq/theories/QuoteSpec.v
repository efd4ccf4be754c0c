(** Vocabulary for group files as text. *)
From Coq Require Import List NArith.
From Verif Require Import Base Text GroupDbModel.
Import ListNotations.
Local Open Scope N_scope.

(** No double quote; no double quote and no end of line. *)
Definition unquoted (s : bytes) : Prop := ~ In 34 s.
Definition plain (s : bytes) : Prop := ~ In 34 s /\ ~ In 10 s /\ ~ In 13 s.

(** Keys and, in a labelled table, values have property [P]; bucket numbers are ints; a table
    without labels has empty values. *)
Definition records (P : bytes -> Prop) (labeled : bool) (ls : list gline) : Prop :=
  exists rs, ls = GHead :: map (fun x => GRow (fst x) (snd x)) rs /\
    Forall (fun x => fst x < 2147483648 /\ P (fst (snd x)) /\ P (snd (snd x)) /\
                     (labeled = false -> snd (snd x) = [])) rs.

(** The blocks a reader cuts a text into: every cut follows an end of line. *)
Definition cut_at_lines (blocks : list bytes) (text : bytes) : Prop :=
  concat blocks = text /\ Forall (fun b => exists b', b = b' ++ [10]) blocks.

(** RFC 4180: a value in quotes, its quotes doubled. *)
Definition rfc_value (s : bytes) : bytes := 34 :: flat_map (fun c => if c =? 34 then [34; 34] else [c]) s ++ [34].
Definition rfc_line (r : row) : bytes := rfc_value (fst r) ++ 44 :: rfc_value (snd r) ++ [10].
