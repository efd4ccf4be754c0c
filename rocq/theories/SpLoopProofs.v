(** Rules for the loops of SpLoopModel. *)
From Coq Require Import List Arith Lia.
From Verif Require Import Base StoreModel StoreProofs SpLoopModel.
Import ListNotations.

Lemma loop_rule : forall (S : Type) n s (f : nat -> S -> outcome S) (P : nat -> S -> Prop) st,
  P s st -> (forall i st, s <= i < s + n -> P i st -> exists st', f i st = Ok st' /\ P (i + 1) st') ->
  exists st', loop n s f st = Ok st' /\ P (s + n) st'.
Proof.
  intros S n. induction n as [|n IH]; intros s f P st H0 Hs; cbn [loop].
  - exists st. rewrite Nat.add_0_r. auto.
  - destruct (Hs s st ltac:(lia) H0) as (st1 & E & H1). rewrite E. cbn [bind].
    destruct (IH (Datatypes.S s) f P st1) as (st2 & E2 & H2).
    + replace (Datatypes.S s) with (s + 1) by lia. exact H1.
    + intros i st' Hi. apply Hs. lia.
    + exists st2. split; [exact E2|]. replace (s + Datatypes.S n) with (Datatypes.S s + n) by lia. exact H2.
Qed.

(** The entries at the positions of [V] are those of [F]. *)
Definition agree {A : Type} (V : nat -> Prop) (F : nat -> A) (l : list A) : Prop :=
  forall p, V p -> nth_error l p = Some (F p).

(** [f] succeeds, writes [F] at the positions of [W] and spoils nothing that agreed with [F]. *)
Definition filler {A : Type} (L : nat) (F : nat -> A) (W : nat -> Prop)
           (f : list A -> outcome (list A)) : Prop :=
  forall st V, length st = L -> agree V F st ->
  exists st', f st = Ok st' /\ length st' = L /\ agree (fun p => V p \/ W p) F st'.

Lemma put_filler : forall (A : Type) L (F : nat -> A) p v, p < L -> v = F p ->
  filler L F (eq p) (put p v).
Proof.
  intros A L F p v Hp Hv st V Hl Hag. unfold put. rewrite (proj2 (Nat.ltb_lt _ _)) by lia.
  eexists. split; [reflexivity|]. split; [rewrite upd_length; exact Hl|].
  intros q Hq. rewrite upd_nth. destruct (Nat.eqb_spec p q) as [<-|Hne].
  - destruct (nth_error st p) eqn:E; [cbn; congruence|]. apply nth_error_None in E. lia.
  - destruct Hq; [auto|contradiction].
Qed.

Lemma ok_filler : forall (A : Type) L (F : nat -> A), filler L F (fun _ => False) Ok.
Proof.
  intros A L F st V Hl Hag. exists st. repeat split; auto. intros p [H|[]]. auto.
Qed.

Lemma filler_weaken : forall (A : Type) L (F : nat -> A) (W W' : nat -> Prop) f,
  (forall p, W' p -> W p) -> filler L F W f -> filler L F W' f.
Proof.
  intros A L F W W' f H Hf st V Hl Hag. destruct (Hf st V Hl Hag) as (st' & E & L' & G).
  exists st'. repeat split; auto. intros p [Hp|Hp]; apply G; auto.
Qed.

Lemma filler_ext : forall (A : Type) L (F : nat -> A) W f f',
  (forall st, f st = f' st) -> filler L F W f -> filler L F W f'.
Proof.
  intros A L F W f f' H Hf st V Hl Hag. rewrite <- H. auto.
Qed.

Lemma loop_filler : forall (A : Type) L (F : nat -> A) n s (W : nat -> nat -> Prop) f,
  (forall i, s <= i < s + n -> filler L F (W i) (f i)) ->
  filler L F (fun p => exists i, s <= i < s + n /\ W i p) (loop n s f).
Proof.
  intros A L F n. induction n as [|n IH]; intros s W f Hf st V Hl Hag; cbn [loop].
  - exists st. repeat split; auto. intros p [H|(i & Hi & _)]; [auto|lia].
  - destruct (Hf s ltac:(lia) st V Hl Hag) as (st1 & E & L1 & G1). rewrite E. cbn [bind].
    destruct (IH (S s) W f ltac:(intros i Hi; apply Hf; lia) st1 _ L1 G1) as (st2 & E2 & L2 & G2).
    exists st2. repeat split; auto. intros p [H|(i & Hi & H)]; apply G2; [auto|].
    destruct (Nat.eq_dec i s) as [->|]; [auto|]. right. exists i. split; [lia|exact H].
Qed.

Lemma div_mod_unique2 : forall a b z, z < b -> (a * b + z) / b = a /\ (a * b + z) mod b = z.
Proof.
  intros a b z H. split.
  - symmetry. apply (Nat.div_unique _ _ _ z); lia.
  - symmetry. apply (Nat.mod_unique _ _ a); lia.
Qed.
