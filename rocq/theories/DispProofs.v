From Coq Require Import List NArith Lia Bool Arith.
From Verif Require Import Base Text DispModel DispSpec.
Import ListNotations.

Lemma carries_receive : forall m r, carries m r -> receive_operation TUnknown m = Ok (Some r).
Proof.
  intros m r (ty & T & H & B). unfold receive_operation. rewrite H. cbn [negb opeqb andb].
  destruct T as [<-|[<-|[<-|[]]]]; now rewrite B.
Qed.
Lemma skipped_receive : forall m, skipped m -> receive_operation TUnknown m = Ok None.
Proof.
  intros m H. unfold receive_operation. destruct H as [-> |[(ty & ->)|[(ty & -> & T)|(ty & -> & B)]]]; [reflexivity|reflexivity| |].
  - destruct T as [-> | ->]; reflexivity.
  - cbn [negb opeqb andb]. destruct ty; try reflexivity; destruct B as [-> | ->]; reflexivity.
Qed.
Lemma carries_not_skipped : forall m r, carries m r -> skipped m -> False.
Proof. intros m r C S. apply carries_receive in C. apply skipped_receive in S. congruence. Qed.
Lemma carries_one : forall m r r', carries m r -> carries m r' -> r = r'.
Proof. intros m r r' C C'. apply carries_receive in C, C'. congruence. Qed.

Section D.
Variables DB K P R : Type.
Variable params : DB -> P.
Variable oprf : K -> bytes -> bytes.
Variable search : DB -> bytes -> option (list R).
Variable stripped : DB -> bool.
Variable own_key : DB -> K.
Variable keqb : K -> K -> bool.
Notation serve := (serve DB K P R params oprf search stripped own_key keqb).
Notation dispatch := (dispatch DB K P R params oprf search stripped own_key keqb).
Notation set_bucket := (set_bucket DB K stripped own_key keqb).
Notation own_reply := (own_reply DB K P R oprf search).
Notation replied := (replied P R).

(** One invariant for all backends. *)
Section Inv.
Variable Inv : backend DB K -> disp DB K -> Prop.
Variable Q : request -> Prop.
Variable A : request -> list (reply P R) -> Prop.
Hypothesis step : forall b d r, Inv b d -> Q r -> ~ is_stop r ->
  exists b' d' out, dispatch b d r = (b', d', out, false) /\ Inv b' d' /\ A r out.
Lemma serve_inv : forall ms b d, Inv b d -> Forall (regular Q) ms -> exists outs, serve b d ms = Ok (outs, false) /\ Forall2 (replied A) ms outs.
Proof using step.
  induction ms as [|m ms IH]; intros b d I F; [exists []; split; [reflexivity|constructor]|].
  inversion F as [|? ? [S|(r & C & NS & HQ)] F']; subst; cbn [DispModel.serve].
  - rewrite (skipped_receive _ S). cbn [bind]. destruct (IH b d I F') as (outs & E & G). rewrite E. cbn [bind fst snd].
    exists ([] :: outs). split; [reflexivity|]. constructor; [|exact G]. split; [reflexivity|]. intros r C. destruct (carries_not_skipped _ _ C S).
  - rewrite (carries_receive _ _ C). cbn [bind]. destruct (step b d r I HQ NS) as (b' & d' & out & E & I' & HA). rewrite E.
    destruct (IH b' d' I' F') as (outs & E' & G). rewrite E'. cbn [bind fst snd].
    exists (out :: outs). split; [reflexivity|]. constructor; [|exact G]. split; [intros S; destruct (carries_not_skipped _ _ C S)|].
    intros r' C'. now rewrite (carries_one _ _ _ C' C).
Qed.
End Inv.

(** What a state at content (db, k) answers. *)
Lemma oprf_reply : forall b db k data (content : N -> option (DB * K)), content b = Some (db, k) -> own_reply content (QOprf b data) (do_oprf DB K P R oprf (mk_disp DB K (Some db) k) data).
Proof.
  intros b db k data content C. cbn [DispSpec.own_reply]. rewrite C. intros D O. unfold do_oprf. cbn [d_key].
  destruct data; [congruence|]. destruct (oprf k (n :: data)); [congruence|reflexivity].
Qed.
Lemma query_reply : forall b db k data (content : N -> option (DB * K)), content b = Some (db, k) -> own_reply content (QQuery b data) (do_query DB K P R search (mk_disp DB K (Some db) k) data).
Proof. intros b db k data content C. cbn [DispSpec.own_reply]. rewrite C. intros ps E. unfold do_query. cbn [d_db]. now rewrite E. Qed.

Lemma not_stop : forall b data, ~ is_stop (QOprf b data) -> match data with [] => (b =? stop_bucket)%N | _ => false end = false.
Proof. intros b [|x data] H; [|reflexivity]. apply N.eqb_neq. intros ->. apply H. reflexivity. Qed.

Lemma grouped_step : forall get n content b d r, holds DB K get n content -> b = Grouped DB K get -> names_below n r -> ~ is_stop r ->
  exists d' out, dispatch b d r = (b, d', out, false) /\ own_reply content r out.
Proof.
  intros get n content b d r H -> N S. destruct r as [|i data|i data].
  - exists d, (do_params DB K P R params d). split; [reflexivity|exact I].
  - cbn [names_below] in N. specialize (H i N). cbn [DispModel.dispatch]. rewrite (not_stop _ _ S). cbn [DispModel.set_bucket].
    destruct (content i) as [[db k]|] eqn:C.
    + rewrite H. eexists _, _. split; [reflexivity|]. now apply oprf_reply.
    + destruct H as (k & ->). eexists _, _. split; [reflexivity|]. cbn [DispSpec.own_reply]. now rewrite C.
  - cbn [names_below] in N. specialize (H i N). cbn [DispModel.dispatch DispModel.set_bucket].
    destruct (content i) as [[db k]|] eqn:C.
    + rewrite H. eexists _, _. split; [reflexivity|]. now apply query_reply with (1 := C).
    + destruct H as (k & ->). eexists _, _. split; [reflexivity|]. cbn [DispSpec.own_reply]. now rewrite C.
Qed.
Lemma grouped_serve : forall get n content d ms, holds DB K get n content -> Forall (regular (names_below n)) ms ->
  exists outs, serve (Grouped DB K get) d ms = Ok (outs, false) /\ Forall2 (replied (own_reply content)) ms outs.
Proof.
  intros get n content d ms H F. apply (serve_inv (fun b _ => b = Grouped DB K get) (names_below n)); [|reflexivity|exact F].
  intros b d' r E N S. destruct (grouped_step get n content b d' r H E N S) as (d'' & out & E' & A). exists b, d'', out. auto.
Qed.
Lemma grouped_params : forall get n content p d ms, holds DB K get n content -> (forall b, (b < n)%N -> exists db k, content b = Some (db, k) /\ params db = p) ->
  (exists db, d_db DB K d = Some db /\ params db = p) -> Forall (regular (names_below n)) ms ->
  exists outs, serve (Grouped DB K get) d ms = Ok (outs, false) /\ Forall2 (replied (fun r out => r = QParams -> out = [AParams P R p])) ms outs.
Proof.
  intros get n content p d ms H HP D F.
  apply (serve_inv (fun b d => b = Grouped DB K get /\ exists db, d_db DB K d = Some db /\ params db = p) (names_below n)); [|now split|exact F].
  intros b d' r [-> (db & E & E')] N S. destruct r as [|i data|i data]; cbn [names_below] in N.
  - exists (Grouped DB K get), d', [AParams P R p]. cbn [DispModel.dispatch]. unfold do_params. rewrite E, E'. split; [reflexivity|]. split; [|reflexivity]. split; [reflexivity|now exists db].
  - pose proof (H i N) as Hi. destruct (HP i N) as (db' & k & C & Pd). rewrite C in Hi. cbn [DispModel.dispatch]. rewrite (not_stop _ _ S). cbn [DispModel.set_bucket]. rewrite Hi.
    eexists _, _, _. split; [reflexivity|]. repeat split; [|discriminate]. now exists db'.
  - pose proof (H i N) as Hi. destruct (HP i N) as (db' & k & C & Pd). rewrite C in Hi. cbn [DispModel.dispatch DispModel.set_bucket]. rewrite Hi.
    eexists _, _, _. split; [reflexivity|]. repeat split; [|discriminate]. now exists db'.
Qed.
Lemma single_serve : forall db k ms, Forall (regular (fun _ => True)) ms ->
  exists outs, serve (Single DB K) (mk_disp DB K (Some db) k) ms = Ok (outs, false) /\
    Forall2 (replied (fun r out => own_reply (fun _ => Some (db, k)) r out /\ (r = QParams -> out = [AParams P R (params db)]))) ms outs.
Proof.
  intros db k ms F. apply (serve_inv (fun b d => b = Single DB K /\ d = mk_disp DB K (Some db) k) (fun _ => True)); [|now split|exact F].
  intros b d r [-> ->] _ S. destruct r as [|i data|i data].
  - exists (Single DB K), (mk_disp DB K (Some db) k), [AParams P R (params db)]. repeat split.
  - exists (Single DB K), (mk_disp DB K (Some db) k), (do_oprf DB K P R oprf (mk_disp DB K (Some db) k) data). cbn [DispModel.dispatch]. rewrite (not_stop _ _ S).
    split; [reflexivity|]. split; [now split|]. split; [|discriminate]. apply (oprf_reply i db k data). reflexivity.
  - exists (Single DB K), (mk_disp DB K (Some db) k), (do_query DB K P R search (mk_disp DB K (Some db) k) data). cbn [DispModel.dispatch].
    split; [reflexivity|]. split; [now split|]. split; [|discriminate]. apply (query_reply i db k data). reflexivity.
Qed.

(** The switcher. *)
Notation fits := (fits DB K stripped own_key keqb).
Definition at_bucket (load : N -> option (DB * K)) (n : N) (b : backend DB K) (d : disp DB K) : Prop :=
  exists s db k, b = Switched DB K load s /\ (s_cur DB K s < n)%N /\ load (s_cur DB K s) = Some (db, k) /\ s_db DB K s = Some db /\ s_key DB K s = k /\ d = mk_disp DB K (Some db) k.
Lemma switch_set : forall load n b d i, fits load n -> at_bucket load n b d -> (i < n)%N ->
  exists b' db k, set_bucket b d i = (b', mk_disp DB K (Some db) k, false) /\ load i = Some (db, k) /\ at_bucket load n b' (mk_disp DB K (Some db) k).
Proof.
  intros load n b d i F (s & db & k & -> & L & E & E1 & E2 & ->) I. cbn [DispModel.set_bucket].
  destruct (N.eqb_spec i (s_cur DB K s)) as [-> |NE].
  - exists (Switched DB K load s), db, k. repeat split; [exact E|]. exists s, db, k. auto 7.
  - destruct (F i I) as (db' & k' & E' & G). unfold switch_to. cbn [negb andb].
    destruct (N.eqb_spec i (s_cur DB K s)); [contradiction|]. rewrite E'. unfold load_current. cbn [s_db s_key].
    exists (Switched DB K load (mk_switch DB K i (Some db') k')), db', k'. repeat split.
    + destruct G as [-> | ->]; [reflexivity|]. now rewrite andb_false_r.
    + exists (mk_switch DB K i (Some db') k'), db', k'. auto 7.
Qed.
Lemma switched_serve : forall load n b d ms, fits load n -> at_bucket load n b d -> Forall (regular (names_below n)) ms ->
  exists outs, serve b d ms = Ok (outs, false) /\
    Forall2 (replied (fun r out => own_reply load r out /\ (r = QParams -> exists i db k, (i < n)%N /\ load i = Some (db, k) /\ out = [AParams P R (params db)]))) ms outs.
Proof.
  intros load n b d ms F A M. apply (serve_inv (at_bucket load n) (names_below n)); [|exact A|exact M]. clear b d A M ms.
  intros b d r A N S. destruct r as [|i data|i data]; cbn [names_below] in N.
  - exists b, d, (do_params DB K P R params d). destruct A as (s & db & k & -> & L & E & E1 & E2 & ->). split; [reflexivity|]. split; [exists s, db, k; auto 7|]. split; [exact I|].
    intros _. exists (s_cur DB K s), db, k. auto.
  - destruct (switch_set load n b d i F A N) as (b' & db & k & E & L & A'). cbn [DispModel.dispatch]. rewrite (not_stop _ _ S), E.
    eexists _, _, _. split; [reflexivity|]. split; [exact A'|]. split; [now apply oprf_reply with (1 := L)|discriminate].
  - destruct (switch_set load n b d i F A N) as (b' & db & k & E & L & A'). cbn [DispModel.dispatch]. rewrite E.
    eexists _, _, _. split; [reflexivity|]. split; [exact A'|]. split; [now apply query_reply with (1 := L)|discriminate].
Qed.
Lemma switched_new : forall load n k0 init, fits load n -> (init < n)%N -> exists b d, new_switched DB K stripped own_key keqb load k0 init = Ok (b, d) /\ at_bucket load n b d.
Proof.
  intros load n k0 init F I. destruct (F init I) as (db & k & E & G). unfold new_switched, switch_to. cbn [negb andb]. rewrite E. unfold load_current. cbn [s_db s_key].
  exists (Switched DB K load (mk_switch DB K init (Some db) k)), (mk_disp DB K (Some db) k). split.
  - destruct G as [-> | ->]; [reflexivity|]. now rewrite andb_false_r.
  - exists (mk_switch DB K init (Some db) k), db, k. auto 7.
Qed.

(** Failing buckets. *)
Lemma failed_serve : forall get d ms, Forall (regular (fun r => match r with QParams => False | QOprf b _ | QQuery b _ => get b = BThrow DB K end)) ms ->
  serve (Grouped DB K get) d ms = Ok (map (fun _ => []) ms, false).
Proof.
  intros get d ms F. induction F as [|m ms [S|(r & C & NS & HQ)] F IH]; [reflexivity| |]; cbn [DispModel.serve map].
  - rewrite (skipped_receive _ S). cbn [bind]. now rewrite IH.
  - rewrite (carries_receive _ _ C). cbn [bind]. destruct r as [|i data|i data]; [destruct HQ| |]; cbn [DispModel.dispatch].
    + rewrite (not_stop _ _ NS). cbn [DispModel.set_bucket]. rewrite HQ. now rewrite IH.
    + cbn [DispModel.set_bucket]. rewrite HQ. now rewrite IH.
Qed.

(** Requests that cannot be computed. *)
Lemma silent_serve : forall d db ms, d_db DB K d = Some db ->
  Forall (regular (fun r => match r with QParams => False | QOprf _ data => data = [] \/ oprf (d_key DB K d) data = [] | QQuery _ data => search db data = None end)) ms ->
  serve (Single DB K) d ms = Ok (map (fun _ => []) ms, false).
Proof.
  intros d db ms D F. induction F as [|m ms [S|(r & C & NS & HQ)] F IH]; [reflexivity| |]; cbn [DispModel.serve map].
  - rewrite (skipped_receive _ S). cbn [bind]. now rewrite IH.
  - rewrite (carries_receive _ _ C). cbn [bind]. destruct r as [|i data|i data]; [destruct HQ| |]; cbn [DispModel.dispatch].
    + rewrite (not_stop _ _ NS). cbn [DispModel.set_bucket]. replace (do_oprf DB K P R oprf d data) with (@nil (reply P R)); [now rewrite IH|].
      unfold do_oprf. destruct HQ as [-> | HQ]; [reflexivity|]. rewrite HQ. now destruct data.
    + cbn [DispModel.set_bucket]. unfold do_query. rewrite D, HQ. now rewrite IH.
Qed.

(** Stopping. *)
Lemma serve_stop : forall ms m post b d, Forall (regular (fun _ => True)) ms -> carries m (QOprf 4294967295 []) ->
  exists outs, length outs = length ms /\ serve b d (ms ++ m :: post) = Ok (outs ++ [[]], true) /\ serve b d ms = Ok (outs, false).
Proof.
  induction ms as [|x ms IH]; intros m post b d F C.
  - exists []. split; [reflexivity|]. cbn [app DispModel.serve]. rewrite (carries_receive _ _ C). cbn [bind DispModel.dispatch]. now split.
  - inversion F as [|? ? [S|(r & C' & NS & _)] F']; subst; cbn [app DispModel.serve].
    + rewrite (skipped_receive _ S). cbn [bind]. destruct (IH m post b d F' C) as (outs & L & E1 & E2). exists ([] :: outs). rewrite E1, E2. cbn [bind fst snd app length]. auto.
    + rewrite (carries_receive _ _ C'). cbn [bind].
      destruct (dispatch b d r) as [[[b' d'] out] st] eqn:E.
      assert (st = false).
      { destruct r as [|i data|i data]; cbn [DispModel.dispatch] in E; [now injection E as _ _ _ <-| |].
        - rewrite (not_stop _ _ NS) in E. destruct (set_bucket b d i) as [[b'' d''] t]. now injection E as _ _ _ <-.
        - destruct (set_bucket b d i) as [[b'' d''] t]. now injection E as _ _ _ <-. }
      subst st. destruct (IH m post b' d' F' C) as (outs & L & E1 & E2). exists (out :: outs). rewrite E1, E2. cbn [bind fst snd app length]. auto.
Qed.

Lemma find_spec : forall get n i d, find_bucket DB K get n i = Ok d <->
  exists j db k, (i <= j < i + N.of_nat n)%N /\ get j = BDb DB K db k /\ d = mk_disp DB K (Some db) k /\ forall l, (i <= l < j)%N -> exists k', get l = BNone DB K k'.
Proof.
  intros get n. induction n as [|n IH]; intros i d.
  - split; [discriminate|]. intros (j & db & k & H & _). lia.
  - cbn [find_bucket]. destruct (get i) as [|k0|db0 k0] eqn:E.
    + split; [discriminate|]. intros (j & db & k & H & G & _ & L). destruct (N.eq_dec j i) as [-> |]; [congruence|]. destruct (L i) as (k' & E'); [lia|congruence].
    + rewrite IH. split; intros (j & db & k & H & G & -> & L).
      * exists j, db, k. split; [lia|]. split; [exact G|]. split; [reflexivity|]. intros l Hl. destruct (N.eq_dec l i) as [-> |]; [now exists k0|]. apply L. lia.
      * assert (j <> i) by congruence. exists j, db, k. split; [lia|]. split; [exact G|]. split; [reflexivity|]. intros l Hl. apply L. lia.
    + split.
      * intros H. injection H as <-. exists i, db0, k0. split; [lia|]. split; [exact E|]. split; [reflexivity|]. intros l Hl. lia.
      * intros (j & db & k & H & G & -> & L). destruct (N.eq_dec j i) as [-> |]; [congruence|]. destruct (L i) as (k' & E'); [lia|congruence].
Qed.
End D.
