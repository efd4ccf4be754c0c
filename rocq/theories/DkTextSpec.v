(** Vocabulary for the text files of duplicate-key PIR. *)
From Coq Require Import List NArith.
From Verif Require Import Base Text.
Import ListNotations.
Local Open Scope N_scope.

(** No comma, double quote or end of line. *)
Definition clean (s : bytes) : Prop := ~ In 44 s /\ ~ In 34 s /\ ~ In 10 s /\ ~ In 13 s.
Definition clean_table (t : list (bytes * list bytes)) : Prop := forall k ls, In (k, ls) t -> clean k /\ Forall clean ls.
(** The labels of rows as one value: 0x1E between the columns, 0x1F between the rows. *)
Definition packed (rows : list (bytes * list bytes)) : bytes := join_with 31 (map (fun r => join_with 30 (snd r)) rows).
Definition not_empty (s : bytes) : bool := match s with [] => false | _ => true end.
