(** Lemmas about the recovery folder. *)
From Coq Require Import List NArith Bool Arith Lia.
From Verif Require Import Base RecoveryModel RecoverySpec ResumeModel.
Import ListNotations.

Section S.
Variable Config : Type.
Variable config_eqb : Config -> Config -> bool.
Variable default_config : Config.
Variable Key : Type.
Hypothesis CE : forall a b, config_eqb a b = true <-> a = b.

Notation ev := (event Config Key).
Notation fold := (folder Config Key).
Notation app_ev := (apply_events Config Key).
Notation exec' := (exec Config config_eqb Key).
Notation runc := (run_calls Config config_eqb Key).

Lemma bytes_eqb_spec : forall a b, bytes_eqb a b = true <-> a = b.
Proof using.
  clear. induction a as [|x a IH]; intros [|y b]; cbn [bytes_eqb]; split; intros H; try discriminate; auto.
  - apply andb_true_iff in H. destruct H as [H1 H2]. apply N.eqb_eq in H1. apply IH in H2. congruence.
  - inversion H; subst. rewrite N.eqb_refl. apply IH. reflexivity.
Qed.

Lemma apply_app : forall d a b, app_ev d (a ++ b) = app_ev (app_ev d a) b.
Proof using. clear. intros. unfold apply_events. apply fold_left_app. Qed.

(** Invariant of a folder and the events so far: [T] is the task (config, digest) fixed so far,
    [K] the key fixed so far. *)
Definition Inv (T : option (Config * list N)) (K : option Key) (d : fold) (es : list ev) : Prop :=
  (forall c g, In (OInit Config Key c g) es -> T = Some (c, g)) /\
  (forall k, In (OKey Config Key k) es -> k = K /\ K <> None) /\
  match f_ckpt Config Key d with
  | Absent _ => T = None /\ K = None
  | Torn _ => True
  | Saved _ c => 1 <= c_stage Config c /\ T = Some (c_config Config c, c_digest Config c) /\
                 (2 <= c_stage Config c -> f_key Config Key d = K /\ K <> None) /\
                 (c_stage Config c < 2 -> K = None)
  end.

(** During a run: [c] is the record in memory, equal to the one on disk except while saving. *)
Definition Mem (T : option (Config * list N)) (K : option Key) (d : fold) (c : ckpt Config) : Prop :=
  (c_stage Config c = 0 -> T = None /\ K = None) /\
  (1 <= c_stage Config c -> T = Some (c_config Config c, c_digest Config c)) /\
  (2 <= c_stage Config c -> f_key Config Key d = K /\ K <> None) /\
  (c_stage Config c < 2 -> K = None).

(** Extending T or K, once. *)
Definition ext {A : Type} (a b : option A) : Prop := a = None \/ a = b.
Lemma ext_refl : forall A (a : option A), ext a a. Proof using. clear. right. reflexivity. Qed.
Lemma ext_trans : forall A (a b c : option A), ext a b -> ext b c -> ext a c.
Proof using. clear. intros A a b c [H|H] [H'|H']; subst; unfold ext; auto. Qed.

Lemma inv_ext_events : forall T K d es T' K' d' new,
  Inv T K d es -> ext T T' -> ext K K' ->
  (forall c g, In (OInit Config Key c g) new -> T' = Some (c, g)) ->
  (forall k, In (OKey Config Key k) new -> k = K' /\ K' <> None) ->
  match f_ckpt Config Key d' with
  | Absent _ => T' = None /\ K' = None
  | Torn _ => True
  | Saved _ c => 1 <= c_stage Config c /\ T' = Some (c_config Config c, c_digest Config c) /\
                 (2 <= c_stage Config c -> f_key Config Key d' = K' /\ K' <> None) /\
                 (c_stage Config c < 2 -> K' = None)
  end ->
  Inv T' K' d' (es ++ new).
Proof using.
  clear. intros T K d es T' K' d' new (A & B & _) ET EK A' B' C. split; [|split; [|exact C]].
  - intros c g I. apply in_app_or in I. destruct I as [I|I]; [|apply A'; exact I].
    specialize (A c g I). destruct ET as [E|E]; congruence.
  - intros k I. apply in_app_or in I. destruct I as [I|I]; [|apply B'; exact I].
    destruct (B k I) as [B1 B2]. destruct EK as [E|E]; [contradiction|]. subst K'. split; assumption.
Qed.

(** Calls after Init and Pre (they only save, keeping config, digest and stage >= 2 when K is set). *)
Definition late (x : call Config Key) : Prop :=
  match x with COnline _ _ _ | CSelf _ _ _ | CPeer _ _ _ | CParsed _ _ _ | COnlineEnd _ _ | CPostEnd _ _ => True | _ => False end.

Definition quiet (e : ev) : Prop := match e with OInit _ _ _ _ | OKey _ _ _ | WKey _ _ _ => False | _ => True end.
Definition ok_write (T : option (Config * list N)) (e : ev) : Prop :=
  match e with
  | WCkpt _ _ (Saved _ c) => 2 <= c_stage Config c /\ T = Some (c_config Config c, c_digest Config c)
  | WCkpt _ _ (Absent _) => False
  | _ => True
  end.

Lemma late_exec : forall T d x c, late x -> 2 <= c_stage Config c -> T = Some (c_config Config c, c_digest Config c) ->
  exists c' new, exec' d x c = Ok (c', new) /\ Forall quiet new /\ Forall (ok_write T) new /\
    2 <= c_stage Config c' /\ T = Some (c_config Config c', c_digest Config c').
Proof using.
  clear. intros T d x c L S2 HT. destruct x; cbn [late] in L; try contradiction; cbn [exec];
  unfold mark_online_start, mark_stage, save, set_stage, update_self, update_peer, update_parsed;
  try match goal with |- context [Nat.ltb ?a ?b] => destruct (Nat.ltb_spec a b) end;
  eexists; eexists; (split; [reflexivity|]); cbn; unfold STAGE_ONLINE_START, STAGE_ONLINE_END, STAGE_POST_PROCESS_END in *;
  repeat split; auto; repeat constructor; cbn; auto; try lia.
Qed.

Lemma late_run : forall T xs d c, Forall late xs -> 2 <= c_stage Config c -> T = Some (c_config Config c, c_digest Config c) ->
  Forall quiet (runc xs c d) /\ Forall (ok_write T) (runc xs c d).
Proof using.
  clear. intros T xs. induction xs as [|x xs IH]; intros d c HL S2 HT; [split; constructor|].
  inversion HL as [|? ? Lx Ls]; subst. cbn [run_calls].
  destruct (late_exec _ d x c Lx S2 eq_refl) as (c' & new & E & Q & W & S2' & HT'). rewrite E.
  destruct (IH (app_ev d new) c' Ls S2' HT') as [A B]. split; apply Forall_app; split; assumption.
Qed.

(** A prefix of quiet, good writes keeps the folder invariant. *)
Lemma quiet_prefix : forall T K new d es, K <> None ->
  (match f_ckpt Config Key d with Absent _ => False | Torn _ => True
   | Saved _ c => 2 <= c_stage Config c /\ T = Some (c_config Config c, c_digest Config c) end) ->
  f_key Config Key d = K ->
  Inv T K d es -> Forall quiet new -> Forall (ok_write T) new -> Inv T K (app_ev d new) (es ++ new).
Proof using.
  clear. intros T K new. induction new as [|e new IH]; intros d es HK HC HF HI HQ HW.
  - rewrite app_nil_r. exact HI.
  - change (app_ev d (e :: new)) with (app_ev (apply_event Config Key d e) new).
    replace (es ++ e :: new) with ((es ++ [e]) ++ new) by (rewrite <- app_assoc; reflexivity).
    inversion HQ as [|? ? Q1 Q2]; subst. inversion HW as [|? ? W1 W2]; subst. apply IH; auto.
    + destruct e as [f|k| | | ]; cbn in *; try contradiction; auto; destruct f; cbn in *; auto.
    + destruct e as [f|k| | | ]; cbn in *; auto; contradiction.
    + destruct e as [f|k| | | ]; cbn [quiet] in Q1; try contradiction.
      * apply (inv_ext_events T (f_key Config Key d) d es); auto using ext_refl.
        -- intros c g [I|[]]; discriminate I.
        -- intros k [I|[]]; discriminate I.
        -- destruct f as [| |c]; cbn in *; auto; [contradiction|]. destruct W1 as [W1 W3].
           split; [lia|]. split; [exact W3|]. split; [auto|lia].
      * apply (inv_ext_events T (f_key Config Key d) d es); auto using ext_refl.
        -- intros c g [I|[]]; discriminate I.
        -- intros k [I|[]]; discriminate I.
        -- cbn [apply_event]. destruct HI as (_ & _ & C). exact C.
Qed.

Lemma Forall_firstn : forall A (P : A -> Prop) n l, Forall P l -> Forall P (firstn n l).
Proof using. clear. intros A P n l H. rewrite Forall_forall in *. intros x I. apply H. rewrite <- (firstn_skipn n l). apply in_or_app. left. exact I. Qed.

(** The part of a run from MarkPreProcessEnd on. *)
Lemma pre_run : forall T K d es c k rest n, Mem T K d c -> 1 <= c_stage Config c -> f_ckpt Config Key d = Saved Config c ->
  Inv T K d es -> Forall late rest ->
  exists T' K', ext T T' /\ ext K K' /\
    let new := firstn n (runc (CPre Config Key (Some k) :: rest) c d) in Inv T' K' (app_ev d new) (es ++ new).
Proof using.
  clear. intros T K d es c k rest n (M0 & M1 & M2 & M3) S1 HD HI HL. cbn [run_calls exec mark_pre].
  destruct (Nat.ltb_spec (c_stage Config c) STAGE_PRE_PROCESS_END) as [H|H]; unfold STAGE_PRE_PROCESS_END in *.
  - (* writes the key, saves *)
    set (c' := set_stage Config 2 c).
    assert (HT : T = Some (c_config Config c', c_digest Config c')) by (apply M1; exact S1).
    assert (KN : K = None) by (apply M3; exact H). subst K.
    destruct d as [df dk]. cbn [f_ckpt] in HD. subst df.
    cbn [app save]. cbn [apply_events fold_left apply_event f_ckpt f_key].
    destruct n as [|[|[|n]]]; cbn [firstn].
    + exists T, None. split; [apply ext_refl|]. split; [apply ext_refl|]. cbn. rewrite app_nil_r. exact HI.
    + exists T, None. split; [apply ext_refl|]. split; [apply ext_refl|]. cbn.
      apply (inv_ext_events T None (mk_folder Config Key (Saved Config c) dk) es); auto using ext_refl.
      * intros c0 g [I|[]]; discriminate I.
      * intros k0 [I|[]]; discriminate I.
      * cbn. split; [exact S1|]. split; [exact HT|]. split; [lia|auto].
    + exists T, None. split; [apply ext_refl|]. split; [apply ext_refl|]. cbn.
      apply (inv_ext_events T None (mk_folder Config Key (Saved Config c) dk) es); auto using ext_refl.
      * intros c0 g [I|[I|[]]]; discriminate I.
      * intros k0 [I|[I|[]]]; discriminate I.
      * cbn. exact I.
    + exists T, (Some k). split; [apply ext_refl|]. split; [left; reflexivity|]. cbn.
      assert (I3 : Inv T (Some k) (mk_folder Config Key (Saved Config c') (Some k)) (es ++ [WKey Config Key k; WCkpt Config Key (Torn Config); WCkpt Config Key (Saved Config c')])).
      { apply (inv_ext_events T None (mk_folder Config Key (Saved Config c) dk) es); auto using ext_refl.
        - left. reflexivity.
        - intros c0 g [I|[I|[I|[]]]]; discriminate I.
        - intros k0 [I|[I|[I|[]]]]; discriminate I.
        - cbn. split; [lia|]. split; [exact HT|]. split; [split; [reflexivity|discriminate]|lia]. }
      destruct n as [|n]; cbn [firstn]; [exact I3|]. cbn [fold_left apply_event].
      match goal with |- Inv _ _ _ (es ++ ?a :: ?b :: ?c :: ?o :: ?r) =>
        replace (es ++ a :: b :: c :: o :: r) with (((es ++ [a; b; c]) ++ [o]) ++ r) by (rewrite <- !app_assoc; reflexivity) end.
      assert (I4 : Inv T (Some k) (mk_folder Config Key (Saved Config c') (Some k))
               ((es ++ [WKey Config Key k; WCkpt Config Key (Torn Config); WCkpt Config Key (Saved Config c')]) ++ [OKey Config Key (Some k)])).
      { apply (inv_ext_events T (Some k) (mk_folder Config Key (Saved Config c') (Some k)) (es ++ [WKey Config Key k; WCkpt Config Key (Torn Config); WCkpt Config Key (Saved Config c')])); auto using ext_refl.
        - intros c0 g [I|[]]; discriminate I.
        - intros k0 [I|[]]. inversion I. split; [reflexivity|discriminate].
        - destruct I3 as (_ & _ & C). exact C. }
      match goal with |- Inv _ _ (fold_left _ (firstn n ?r) _) _ => destruct (late_run T rest (mk_folder Config Key (Saved Config c') (Some k)) c' HL) as [Q W]; [unfold c'; cbn; lia|exact HT|] end.
      apply quiet_prefix; auto.
      * discriminate.
      * cbn. split; [lia|exact HT].
      * apply Forall_firstn. exact Q.
      * apply Forall_firstn. exact W.
  - (* key read back *)
    exists T, K. split; [apply ext_refl|]. split; [apply ext_refl|]. cbn [app].
    destruct (M2 H) as [FK KN]. destruct n as [|n]; cbn [firstn].
    { cbn. rewrite app_nil_r. exact HI. }
    cbn [apply_events fold_left apply_event].
    match goal with |- Inv _ _ _ (es ++ ?o :: ?r) => replace (es ++ o :: r) with ((es ++ [o]) ++ r) by (rewrite <- app_assoc; reflexivity) end.
    assert (I4 : Inv T K d (es ++ [OKey Config Key (f_key Config Key d)])).
    { apply (inv_ext_events T K d es); auto using ext_refl.
      - intros c0 g [I|[]]; discriminate I.
      - intros k0 [I|[]]. inversion I; subst. split; [reflexivity|assumption].
      - destruct HI as (_ & _ & C). exact C. }
    destruct (late_run T rest d c HL) as [Q W]; [exact H|apply M1; exact S1|].
    apply quiet_prefix; auto.
    + rewrite HD. split; [exact H|apply M1; exact S1].
    + apply Forall_firstn. exact Q.
    + apply Forall_firstn. exact W.
Qed.

(** Repeated Init on a saved record adds only an observation of the same task. *)
Lemma again_run : forall T K d es c cfg dig xs n, Mem T K d c -> 1 <= c_stage Config c -> f_ckpt Config Key d = Saved Config c ->
  Inv T K d es ->
  (forall es n, Inv T K d es -> exists T' K', ext T T' /\ ext K K' /\ let new := firstn n (runc xs c d) in Inv T' K' (app_ev d new) (es ++ new)) ->
  exists T' K', ext T T' /\ ext K K' /\
    let new := firstn n (runc (CInit Config Key cfg dig :: xs) c d) in Inv T' K' (app_ev d new) (es ++ new).
Proof using CE.
  clear - CE. intros T K d es c cfg dig xs n (M0 & M1 & M2 & M3) S1 HD HI HX. cbn [run_calls exec mark_init_end].
  unfold mark_init_end, STAGE_UNSPECIFIED. destruct (Nat.eqb_spec (c_stage Config c) 0) as [Z|Z]; [lia|]. cbn [negb].
  assert (NIL : exists T' K', ext T T' /\ ext K K' /\ let new := firstn n [] in Inv T' K' (app_ev d new) (es ++ new)).
  { exists T, K. split; [apply ext_refl|]. split; [apply ext_refl|]. rewrite firstn_nil. cbn. rewrite app_nil_r. exact HI. }
  destruct (config_eqb cfg (c_config Config c)) eqn:E1; cbn [enforce]; [|exact NIL].
  destruct (bytes_eqb dig (c_digest Config c)) eqn:E2; cbn [enforce]; [|exact NIL].
  apply CE in E1. apply bytes_eqb_spec in E2. subst cfg dig.
  cbn [app]. cbn [apply_events fold_left apply_event]. destruct n as [|n]; cbn [firstn].
  { exists T, K. split; [apply ext_refl|]. split; [apply ext_refl|]. cbn. rewrite app_nil_r. exact HI. }
  destruct (HX (es ++ [OInit Config Key (c_config Config c) (c_digest Config c)]) n) as (T' & K' & ET & EK & R).
  - apply (inv_ext_events T K d es); auto using ext_refl.
    + intros c0 g [I|[]]. inversion I; subst. apply M1. exact S1.
    + intros k0 [I|[]]; discriminate I.
    + destruct HI as (_ & _ & C). exact C.
  - exists T', K'. split; [exact ET|]. split; [exact EK|]. cbn zeta in *. rewrite <- app_assoc in R. exact R.
Qed.

Lemma update_late : forall ups, Forall (is_update Config Key) ups -> Forall late ups.
Proof using. clear. intros ups H. eapply Forall_impl; [|exact H]. intros x. destruct x; cbn; auto. Qed.
Lemma end_late : forall l, Forall (is_end Config Key) l -> Forall late l.
Proof using. clear. intros l H. eapply Forall_impl; [|exact H]. intros x. destruct x; cbn; auto. Qed.

Lemma history_inv : forall d es,
  history Config config_eqb default_config Key (fun k => k <> None) d es -> exists T K, Inv T K d es.
Proof using CE.
  intros d es H. induction H as [|d es cfg dig again k peer ups ends n H IH HK HU HE new].
  - exists None, None. split; [intros c g []|]. split; [intros k []|]. cbn. auto.
  - destruct IH as (T & K & HI). destruct k as [k|]; [|contradiction].
    set (rest := COnline Config Key peer :: ups ++ ends).
    assert (HL : Forall late rest).
    { constructor; [exact I|]. apply Forall_app. split; [apply update_late|apply end_late]; assumption. }
    set (xs := CPre Config Key (Some k) :: rest).
    set (tl1 := (if again then [CInit Config Key cfg dig] else []) ++ xs).
    assert (EP : program Config Key cfg dig again (Some k) peer ups ends = CInit Config Key cfg dig :: tl1) by reflexivity.
    (* what follows the first Init, from a saved record *)
    assert (TL : forall T K d es c n, Mem T K d c -> 1 <= c_stage Config c -> f_ckpt Config Key d = Saved Config c -> Inv T K d es ->
       exists T' K', ext T T' /\ ext K K' /\ let new := firstn n (runc tl1 c d) in Inv T' K' (app_ev d new) (es ++ new)).
    { intros T0 K0 d0 es0 c0 n0 M S HD I0. unfold tl1. destruct again; cbn [app].
      - apply again_run; auto. intros es1 n1 I1. apply pre_run; auto.
      - apply pre_run; auto. }
    assert (G : exists T' K', ext T T' /\ ext K K' /\ Inv T' K' (app_ev d new) (es ++ new)).
    { unfold new, run. rewrite EP. unfold load. destruct (f_ckpt Config Key d) as [| |c] eqn:FD.
      - (* fresh *)
        destruct HI as (A & B & C). rewrite FD in C. destruct C as [-> ->].
        set (c1 := mk_ckpt Config STAGE_INIT_END cfg dig 0 0 0).
        assert (ER : runc (CInit Config Key cfg dig :: tl1) (empty_ckpt Config default_config) d =
          WCkpt Config Key (Torn Config) :: WCkpt Config Key (Saved Config c1) :: OInit Config Key cfg dig ::
          runc tl1 c1 (mk_folder Config Key (Saved Config c1) (f_key Config Key d))) by reflexivity.
        rewrite ER. clear ER. destruct n as [|[|n]]; cbn [firstn].
        + exists None, None. split; [apply ext_refl|]. split; [apply ext_refl|]. cbn. rewrite app_nil_r.
          split; [exact A|]. split; [exact B|]. rewrite FD. auto.
        + exists None, None. split; [apply ext_refl|]. split; [apply ext_refl|]. cbn.
          apply (inv_ext_events None None d es); auto using ext_refl.
          * split; [exact A|]. split; [exact B|]. rewrite FD. auto.
          * intros c0 g [I|[]]; discriminate I.
          * intros k0 [I|[]]; discriminate I.
          * exact I.
        + assert (I2 : Inv (Some (cfg, dig)) None (mk_folder Config Key (Saved Config c1) (f_key Config Key d))
                 (es ++ [WCkpt Config Key (Torn Config); WCkpt Config Key (Saved Config c1)])).
          { apply (inv_ext_events None None d es); auto using ext_refl.
            - split; [exact A|]. split; [exact B|]. rewrite FD. auto.
            - left. reflexivity.
            - intros c0 g [I|[I|[]]]; discriminate I.
            - intros k0 [I|[I|[]]]; discriminate I.
            - unfold c1, STAGE_INIT_END. cbn. split; [lia|]. split; [reflexivity|]. split; [lia|auto]. }
          destruct n as [|n]; cbn [firstn].
          * exists (Some (cfg, dig)), None. split; [left; reflexivity|]. split; [apply ext_refl|]. exact I2.
          * assert (I3 : Inv (Some (cfg, dig)) None (mk_folder Config Key (Saved Config c1) (f_key Config Key d))
                 ((es ++ [WCkpt Config Key (Torn Config); WCkpt Config Key (Saved Config c1)]) ++ [OInit Config Key cfg dig])).
            { eapply inv_ext_events; [exact I2|apply ext_refl|apply ext_refl| | | ].
              - intros c0 g [I|[]]. inversion I; subst. reflexivity.
              - intros k0 [I|[]]; discriminate I.
              - destruct I2 as (_ & _ & C). exact C. }
            assert (M1 : Mem (Some (cfg, dig)) None (mk_folder Config Key (Saved Config c1) (f_key Config Key d)) c1).
            { split; [unfold c1, STAGE_INIT_END; cbn; discriminate|]. split; [reflexivity|]. split; [unfold c1, STAGE_INIT_END; cbn; lia|auto]. }
            destruct (TL _ _ _ _ c1 n M1 (le_n 1) eq_refl I3) as (T' & K' & ET & EK & R).
            exists T', K'. split; [left; reflexivity|]. split; [exact EK|].
            cbn zeta in R. rewrite <- !app_assoc in R. exact R.
      - exists T, K. split; [apply ext_refl|]. split; [apply ext_refl|]. rewrite firstn_nil. cbn. rewrite app_nil_r. exact HI.
      - assert (HI' := HI). destruct HI as (A & B & C). rewrite FD in C. destruct C as (C1 & C2 & C3 & C4).
        assert (M : Mem T K d c) by (split; [lia|]; split; [auto|]; split; assumption).
        apply again_run; auto. }
    destruct G as (T' & K' & _ & _ & R). exists T', K'. exact R.
Qed.

(** ** Stages *)
Lemma stages_app : forall a b, stages (a ++ b : list ev) = stages a ++ stages b.
Proof using.
  clear. induction a as [|e a IH]; intros b; [reflexivity|]. cbn [app stages].
  destruct e as [f| | | |]; try apply IH. destruct f; try apply IH. cbn [app]. rewrite IH. reflexivity.
Qed.
Lemma ascending_app : forall l l' m, ascending m l -> (forall x, (x = m \/ In x l) -> (forall y, In y l' -> x <= y)) -> ascending m l' -> ascending m (l ++ l').
Proof using.
  clear. induction l as [|x l IH]; intros l' m H1 H2 H3; [exact H3|]. cbn [app ascending] in *. destruct H1 as [A B]. split; [exact A|].
  apply IH; [exact B| |].
  - intros y Hy z Hz. apply (H2 y); [|exact Hz]. destruct Hy as [->|Hy]; [right; left; reflexivity|right; right; exact Hy].
  - destruct l' as [|y l']; [exact I|]. cbn [ascending] in *. split; [|tauto]. apply (H2 x); [right; left; reflexivity|left; reflexivity].
Qed.

(** What one call does to the stage. *)
Definition non_update (x : call Config Key) : Prop := ~ is_update Config Key x.
Definition non_end (x : call Config Key) : Prop := ~ is_end Config Key x.

Lemma exec_stage : forall d x c c' new, exec' d x c = Ok (c', new) ->
  (is_update Config Key x -> c_stage Config c <= 3) ->
  c_stage Config c <= c_stage Config c' /\
  (stages new = [] \/ stages new = [c_stage Config c']) /\
  (non_end x -> c_stage Config c <= 3 -> c_stage Config c' <= 3).
Proof using.
  clear. intros d x c c' new E HU. destruct x; cbn [exec] in E;
  unfold mark_init_end, mark_pre, mark_online_start, mark_stage, save, set_stage, update_self, update_peer, update_parsed,
    STAGE_UNSPECIFIED, STAGE_INIT_END, STAGE_PRE_PROCESS_END, STAGE_ONLINE_START, STAGE_ONLINE_END, STAGE_POST_PROCESS_END in *;
  repeat match type of E with
  | context [Nat.eqb ?a ?b] => destruct (Nat.eqb_spec a b); cbn [negb] in E
  | context [Nat.ltb ?a ?b] => destruct (Nat.ltb_spec a b)
  | context [enforce ?b _] => destruct b; cbn [enforce] in E; try discriminate E
  | context [match ?k with Some _ => _ | None => _ end] => destruct k
  end;
  inversion E; subst; clear E; cbn in *; unfold non_end; cbn;
  repeat split; auto; try lia; intros; try lia; exfalso; tauto.
Qed.

Lemma asc_step : forall m s l, m <= s -> ascending s l -> ascending m l.
Proof using. clear. intros m s [|x l] H A; [exact I|]. cbn [ascending] in *. destruct A. split; [lia|assumption]. Qed.

Lemma asc_cons : forall (new : list ev) c c' rest, c_stage Config c <= c_stage Config c' ->
  stages new = [] \/ stages new = [c_stage Config c'] ->
  ascending (c_stage Config c') rest -> ascending (c_stage Config c) (stages new ++ rest).
Proof using.
  clear. intros new c c' rest H [E|E] A; rewrite E; cbn [app ascending].
  - eapply asc_step; eassumption.
  - split; assumption.
Qed.

Lemma asc_nonupdate : forall xs c d, Forall non_update xs -> ascending (c_stage Config c) (stages (runc xs c d)).
Proof using.
  clear. induction xs as [|x xs IH]; intros c d H; [exact I|]. inversion H as [|? ? H1 H2]; subst. cbn [run_calls].
  destruct (exec' d x c) as [[c' new]| | |] eqn:E; try exact I. rewrite stages_app.
  destruct (exec_stage _ _ _ _ _ E) as (A & B & _); [intros U; contradiction|].
  eapply asc_cons; [exact A|exact B|]. apply IH. exact H2.
Qed.
Lemma asc_low : forall A B c d, c_stage Config c <= 3 -> Forall non_end A -> Forall non_update B ->
  ascending (c_stage Config c) (stages (runc (A ++ B) c d)).
Proof using.
  clear. induction A as [|x A IH]; intros B c d H HA HB; [apply asc_nonupdate; exact HB|].
  inversion HA as [|? ? H1 H2]; subst. cbn [app run_calls].
  destruct (exec' d x c) as [[c' new]| | |] eqn:E; try exact I. rewrite stages_app.
  destruct (exec_stage _ _ _ _ _ E) as (P & Q & R); [auto|].
  eapply asc_cons; [exact P|exact Q|]. apply IH; auto.
Qed.

(** ** The task is fixed, whatever the protocol (with or without a cryptor) *)
Definition Inv0 (T : option (Config * list N)) (d : fold) (es : list ev) : Prop :=
  (forall c g, In (OInit Config Key c g) es -> T = Some (c, g)) /\
  match f_ckpt Config Key d with
  | Absent _ => T = None
  | Torn _ => True
  | Saved _ c => 1 <= c_stage Config c /\ T = Some (c_config Config c, c_digest Config c)
  end.
Definition good0 (T : option (Config * list N)) (e : ev) : Prop :=
  match e with
  | OInit _ _ c g => T = Some (c, g)
  | WCkpt _ _ (Saved _ c) => 1 <= c_stage Config c /\ T = Some (c_config Config c, c_digest Config c)
  | WCkpt _ _ (Absent _) => False
  | _ => True
  end.
Lemma exec0 : forall T d x c c' new, 1 <= c_stage Config c -> T = Some (c_config Config c, c_digest Config c) ->
  exec' d x c = Ok (c', new) -> Forall (good0 T) new /\ 1 <= c_stage Config c' /\ T = Some (c_config Config c', c_digest Config c').
Proof using CE.
  clear - CE. intros T d x c c' new S1 HT E. subst T. destruct x; cbn [exec] in E;
  unfold mark_init_end, mark_pre, mark_online_start, mark_stage, save, set_stage, update_self, update_peer, update_parsed,
    STAGE_UNSPECIFIED, STAGE_INIT_END, STAGE_PRE_PROCESS_END, STAGE_ONLINE_START, STAGE_ONLINE_END, STAGE_POST_PROCESS_END in *;
  repeat match type of E with
  | context [Nat.eqb ?a ?b] => destruct (Nat.eqb_spec a b); cbn [negb] in E; [lia|]
  | context [Nat.ltb ?a ?b] => destruct (Nat.ltb_spec a b)
  | context [enforce ?b _] => let H := fresh "EQ" in destruct b eqn:H; cbn [enforce] in E; try discriminate E
  | context [match ?k with Some _ => _ | None => _ end] => destruct k
  end;
  inversion E; subst; clear E; cbn in *;
  try (apply CE in EQ; apply bytes_eqb_spec in EQ0; subst);
  repeat split; auto; repeat constructor; cbn; auto; try lia.
Qed.
Lemma run0 : forall T xs d c, 1 <= c_stage Config c -> T = Some (c_config Config c, c_digest Config c) -> Forall (good0 T) (runc xs c d).
Proof using CE.
  intros T xs. induction xs as [|x xs IH]; intros d c S1 HT; [constructor|]. cbn [run_calls].
  destruct (exec' d x c) as [[c' new]| | |] eqn:E; try constructor.
  destruct (exec0 T d x c c' new S1 HT E) as (A & B & C). apply Forall_app. split; [exact A|]. apply IH; assumption.
Qed.
Lemma inv0_events : forall T new d es, Inv0 T d es ->
  Forall (good0 T) new -> Inv0 T (app_ev d new) (es ++ new).
Proof using.
  clear. intros T new. induction new as [|e new IH]; intros d es HI HG; [rewrite app_nil_r; exact HI|].
  inversion HG as [|? ? G1 G2]; subst. change (app_ev d (e :: new)) with (app_ev (apply_event Config Key d e) new).
  replace (es ++ e :: new) with ((es ++ [e]) ++ new) by (rewrite <- app_assoc; reflexivity).
  apply IH; auto. destruct HI as [A B]. split.
  - intros c g I. apply in_app_or in I. destruct I as [I|[I|[]]]; [apply A; exact I|]. subst e. exact G1.
  - destruct e as [f| | | |]; cbn [apply_event f_ckpt]; try exact B. destruct f; cbn in *; auto. contradiction.
Qed.
Lemma history_inv0 : forall kinds d es, history Config config_eqb default_config Key kinds d es -> exists T, Inv0 T d es.
Proof using CE.
  intros kinds d es H. induction H as [|d es cfg dig again k peer ups ends n H IH HK HU HE new].
  - exists None. split; [intros c g []|reflexivity].
  - destruct IH as (T & HI). unfold new, run, load, program. cbn [run_calls].
    destruct (f_ckpt Config Key d) as [| |c] eqn:FD.
    + destruct HI as [A B]. rewrite FD in B. subst T.
      cbn [exec]. unfold mark_init_end. cbn [c_stage empty_ckpt Nat.eqb STAGE_UNSPECIFIED negb c_self c_peer c_parsed].
      set (c1 := mk_ckpt Config STAGE_INIT_END cfg dig 0 0 0).
      match goal with |- context [run_calls Config config_eqb Key ?a ?b ?c] => set (xs := a); set (d1 := c) end.
      assert (G : Forall (good0 (Some (cfg, dig))) (save Config Key c1 ++ [OInit Config Key cfg dig] ++ runc xs c1 d1)).
      { apply Forall_app. split; [repeat constructor; cbn; unfold STAGE_INIT_END; lia|]. apply Forall_app. split; [repeat constructor|].
        apply run0; [cbn; unfold STAGE_INIT_END; lia|reflexivity]. }
      exists (match n with O | S O => None | _ => Some (cfg, dig) end).
      rewrite <- app_assoc.
      assert (I0 : Inv0 (match n with O | S O => None | _ => Some (cfg, dig) end)
                    (app_ev d (firstn 1 (firstn n (save Config Key c1 ++ [OInit Config Key cfg dig] ++ runc xs c1 d1))))
                    (es ++ firstn 1 (firstn n (save Config Key c1 ++ [OInit Config Key cfg dig] ++ runc xs c1 d1)))).
      { assert (NI : forall c g, ~ In (OInit Config Key c g) es) by (intros c g I; specialize (A c g I); discriminate A).
        destruct n as [|n]; cbn [firstn].
        - rewrite app_nil_r. split; [exact A|]. cbn. rewrite FD. reflexivity.
        - cbn [save app firstn]. split; [|exact I]. intros c g I0. apply in_app_or in I0. destruct I0 as [I0|[I0|[]]]; [|discriminate I0].
          exfalso. eapply NI. exact I0. }
      set (L := firstn n (save Config Key c1 ++ [OInit Config Key cfg dig] ++ runc xs c1 d1)) in *.
      rewrite <- (firstn_skipn 1 L). rewrite apply_app. rewrite app_assoc. apply inv0_events; [exact I0|].
      destruct n as [|[|n]]; [constructor|constructor|].
      assert (FL : Forall (good0 (Some (cfg, dig))) L) by (apply Forall_firstn; exact G).
      rewrite <- (firstn_skipn 1 L) in FL. apply Forall_app in FL. exact (proj2 FL).
    + exists T. rewrite firstn_nil. cbn. rewrite app_nil_r. exact HI.
    + exists T. apply inv0_events; [exact HI|]. apply Forall_firstn. destruct HI as [A B]. rewrite FD in B. destruct B as [B1 B2].
      apply (run0 T (CInit Config Key cfg dig :: (if again then [CInit Config Key cfg dig] else []) ++ CPre Config Key k :: COnline Config Key peer :: ups ++ ends) d c B1 B2).
Qed.
End S.
