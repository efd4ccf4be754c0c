(** C46: the shuffled batch provider. *)
From Coq Require Import List NArith Bool Arith Lia Permutation.
From Verif Require Import Base StoreModel ShufModel ShufSpec ShufProofs.
Import ListNotations.

(** For every split of the input into non-empty raw batches, every permutation drawn for each, and
    every positive batch size, reading until an empty batch is a shuffled pass over the input; all
    batches but the last are full and none is empty. *)
Theorem C46_shuffled_pass :
  forall (Item : Type) (moved : Item) (src : list (raw_batch Item)) bs,
  0 < bs ->
  Forall (fun b => rb_items Item b <> [] /\ Permutation (rb_left Item b) (seq 0 (length (rb_items Item b)))) src ->
  exists B, drain_shuffled Item moved (2 + length (concat (map (rb_items Item) src))) bs (shuf_open Item src) = Ok B /\
    shuffled_pass (concat (map (rb_items Item) src)) (concat B) /\
    Forall (fun b => 0 < length b <= bs) B /\ Forall (fun b => length b = bs) (removelast B).
Proof. exact full_pass. Qed.
Print Assumptions C46_shuffled_pass.

(** Two raw batches of 3 and 2 items, read two at a time. *)
Example C46_example :
  let src := [mk_raw N [(10, 0); (11, 2); (12, 0)]%N [2; 0; 1]; mk_raw N [(13, 1); (14, 0)]%N [1; 0]] in
  Forall (fun b => rb_items N b <> [] /\ Permutation (rb_left N b) (seq 0 (length (rb_items N b)))) src /\
  drain_shuffled N 0%N (2 + length (concat (map (rb_items N) src))) 2 (shuf_open N src) =
    Ok [[(12%N, 0%N, 0, 2); (10%N, 0%N, 1, 0)]; [(11%N, 2%N, 2, 1); (14%N, 0%N, 3, 4)]; [(13%N, 1%N, 4, 3)]].
Proof.
  split; [|reflexivity]. repeat constructor; try discriminate; cbn.
  - apply Permutation_sym. apply (Permutation_cons_app [2] [1] 0). apply (Permutation_cons_app [2] [] 1). reflexivity.
Qed.
