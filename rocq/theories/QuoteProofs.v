From Coq Require Import List NArith Lia Bool Arith String.
From Verif Require Import Base Text TextProofs StoreModel PirPackModel PirPackProofs2 PirPackProofs3 GroupDbModel GroupDbSpec GroupDbProofs QuoteModel QuoteSpec.
Import ListNotations.
Local Open Scope list_scope.

(** Characters that end or open nothing. *)
Definition tame (c : N) : Prop := line_break c = false /\ (c =? comma)%N = false /\ (c =? quote)%N = false.
Lemma digit_tame : forall c, is_digit c = true -> tame c.
Proof.
  intros c H. unfold is_digit in H. apply andb_true_iff in H. destruct H as [H1 H2]. apply N.leb_le in H1, H2.
  unfold tame, line_break, newline, creturn, comma, quote. repeat split; try (apply orb_false_iff; split); apply N.eqb_neq; lia.
Qed.
Lemma dec_tame : forall n, Forall tame (dec n).
Proof.
  intros n. destruct (dec_spec n) as (_ & D & _). rewrite forallb_forall in D. apply Forall_forall. intros c H. apply digit_tame, D, H.
Qed.
Lemma csv_plain : forall s v r t, Forall tame s -> csv InPlain v r (s ++ t) = csv InPlain (v ++ s) r t.
Proof.
  induction s as [|c s IH]; intros v r t H; cbn [app]; [now rewrite app_nil_r|].
  inversion H as [|? ? (H1 & H2 & H3) H4]; subst. cbn [csv]. rewrite H1, H2. cbn [andb].
  rewrite IH by assumption. now rewrite <- app_assoc.
Qed.
Lemma csv_first : forall m s r t, (m = AtLine /\ r = [] \/ m = AtValue) -> Forall tame s -> s <> [] -> csv m [] r (s ++ t) = csv InPlain s r t.
Proof.
  intros m [|c s] r t M H N; [congruence|]. inversion H as [|? ? (H1 & H2 & H3) H4]; subst. cbn [app csv].
  rewrite H1, H2, H3. rewrite andb_false_r. cbn [app].
  destruct M as [[-> _] | ->]; apply (csv_plain s [c] r t H4).
Qed.
Lemma csv_quoted : forall s v r t, unquoted s -> csv InQuotes v r (s ++ t) = csv InQuotes (v ++ s) r t.
Proof.
  induction s as [|c s IH]; intros v r t H; cbn [app]; [now rewrite app_nil_r|].
  assert (C : (c =? quote)%N = false) by (apply N.eqb_neq; intros ->; apply H; now left).
  cbn [csv]. rewrite C, IH by (intros I; apply H; now right). now rewrite <- app_assoc.
Qed.
Lemma csv_close : forall c v r t, (c =? quote)%N = false -> csv InQuotes v r (quote :: c :: t) = csv InPlain v r (c :: t).
Proof. intros c v r t C. cbn [csv]. rewrite N.eqb_refl, C. reflexivity. Qed.
Lemma csv_comma : forall v r t, csv InPlain v r (comma :: t) = csv AtValue [] (r ++ [v]) t.
Proof. reflexivity. Qed.
Lemma csv_open : forall r t, csv AtValue [] r (quote :: t) = csv InQuotes [] r t.
Proof. reflexivity. Qed.
Lemma csv_end : forall v r t, csv InPlain v r (newline :: t) = match csv AtLine [] [] t with Some rs => Some ((r ++ [v]) :: rs) | None => None end.
Proof. reflexivity. Qed.

Definition fields (labeled : bool) (l : gline) : list bytes :=
  match l with GHead => head_fields labeled | GRow b (k, v) => if labeled then [dec b; k; v] else [dec b; k] end.
Definition okl (P : bytes -> Prop) (l : gline) : Prop := match l with GHead => True | GRow _ (k, v) => P k /\ P v end.
Definition oapp (x : list bytes) (o : option (list (list bytes))) := match o with Some rs => Some (x :: rs) | None => None end.

Lemma line_csv : forall labeled l t, okl unquoted l -> csv AtLine [] [] (line_text labeled l ++ t) = oapp (fields labeled l) (csv AtLine [] [] t).
Proof.
  intros labeled [|b [k v]] t H; [destruct labeled; reflexivity|]. destruct H as [K V]. cbn [line_text].
  rewrite <- app_assoc. cbn [app]. rewrite csv_first; [|now left|apply dec_tame|apply dec_spec].
  rewrite csv_comma. unfold in_quotes. cbn [app]. rewrite csv_open, <- !app_assoc, csv_quoted by assumption. cbn [app].
  destruct labeled; cbn [app].
  - rewrite csv_close by reflexivity. rewrite csv_comma, csv_open, <- !app_assoc, csv_quoted by assumption. cbn [app].
    rewrite csv_close by reflexivity. rewrite csv_end. unfold oapp. destruct (csv AtLine [] [] t); reflexivity.
  - rewrite csv_close by reflexivity. rewrite csv_end. unfold oapp. destruct (csv AtLine [] [] t); reflexivity.
Qed.
Lemma text_csv : forall labeled ls, Forall (okl unquoted) ls -> csv AtLine [] [] (group_text labeled ls) = Some (map (fields labeled) ls).
Proof.
  intros labeled ls H. induction H as [|l ls H1 H2 IH]; [reflexivity|].
  unfold group_text in *. cbn [flat_map map]. rewrite line_csv, IH by assumption. reflexivity.
Qed.

(** Blocks of whole lines. *)
Definition inner (P : gline -> Prop) (labeled : bool) (l : gline) : Prop := P l /\ exists x, line_text labeled l = x ++ [newline] /\ ~ In newline x.
Lemma prefix_first : forall (x : bytes) b' rest y, ~ In newline x -> (b' ++ [newline]) ++ rest = (x ++ [newline]) ++ y ->
  exists z, b' ++ [newline] = (x ++ [newline]) ++ z /\ y = z ++ rest /\ (z = [] \/ exists z', z = z' ++ [newline]).
Proof.
  induction x as [|c x IH]; intros b' rest y N E; cbn [app] in E.
  - destruct b' as [|d b']; cbn [app] in E.
    + injection E as E. exists []. repeat split; [now rewrite E|now left].
    + injection E as -> E. exists (b' ++ [newline]). repeat split; [now rewrite <- E|]. right. now exists b'.
  - destruct b' as [|d b']; cbn [app] in E.
    + injection E as E _. exfalso. apply N. left. now symmetry.
    + injection E as -> E. destruct (IH b' rest y) as (z & Z1 & Z2 & Z3); [intros I; apply N; now right|exact E|].
      exists z. repeat split; [|exact Z2|exact Z3]. cbn [app]. now rewrite Z1.
Qed.
Lemma block_lines : forall P labeled ls b rest, Forall (inner P labeled) ls -> (exists b', b = b' ++ [newline]) -> b ++ rest = group_text labeled ls ->
  exists l1 l2, ls = l1 ++ l2 /\ b = group_text labeled l1 /\ rest = group_text labeled l2.
Proof.
  intros P labeled ls. induction ls as [|l ls IH]; intros b rest H [b' B] E; subst b.
  - destruct b'; discriminate.
  - inversion H as [|? ? (_ & x & X & NX) H2]; subst. unfold group_text in E. cbn [flat_map] in E. rewrite X in E.
    apply prefix_first in E; [|assumption]. destruct E as (z & Z1 & Z2 & Z3). destruct Z3 as [-> | Z3].
    + exists [l], ls. repeat split; [|now symmetry]. unfold group_text. cbn [flat_map]. now rewrite X, Z1, app_nil_r.
    + destruct (IH z rest H2 Z3 (eq_sym Z2)) as (l1 & l2 & -> & -> & ->). exists (l :: l1), l2. repeat split.
      unfold group_text. cbn [flat_map]. now rewrite X, Z1.
Qed.
Lemma blocks_csv : forall labeled blocks ls, Forall (inner (okl unquoted) labeled) ls -> cut_at_lines blocks (group_text labeled ls) ->
  csv_blocks blocks = Some (map (fields labeled) ls).
Proof.
  intros labeled. induction blocks as [|b blocks IH]; intros ls H [E C].
  - destruct ls as [|l ls]; [reflexivity|]. inversion H as [|? ? (_ & x & X & _) _]; subst. unfold group_text in E. cbn [flat_map concat] in E.
    rewrite X in E. destruct x; discriminate.
  - inversion C as [|? ? C1 C2]; subst. cbn [concat] in E.
    destruct (block_lines _ _ _ _ _ H C1 E) as (l1 & l2 & -> & -> & R). apply Forall_app in H. destruct H as [H1 H2].
    cbn [csv_blocks]. rewrite text_csv by (eapply Forall_impl; [|exact H1]; intros ? [? _]; assumption).
    rewrite (IH l2 H2 (conj R C2)). now rewrite map_app.
Qed.

Lemma fields_row : forall labeled b k v, (b < 2147483648)%N -> (labeled = false -> v = []) ->
  field_row labeled (fields labeled (GRow b (k, v))) = Ok (GRow b (k, v)).
Proof.
  intros [|] b k v B V; cbn [fields field_row]; rewrite atoi_dec by lia; [reflexivity|]. now rewrite V.
Qed.
Lemma read_fields : forall P labeled blocks ls, records P labeled ls -> csv_blocks blocks = Some (map (fields labeled) ls) -> group_read labeled blocks = Ok ls.
Proof.
  intros P labeled blocks ls (rs & -> & H) E. unfold group_read. rewrite E. cbn [map fields].
  destruct (list_eq_dec (list_eq_dec N.eq_dec) (head_fields labeled) (head_fields labeled)); [|congruence]. cbn [enforce].
  assert (M : map_out (field_row labeled) (map (fields labeled) (map (fun x => GRow (fst x) (snd x)) rs)) = Ok (map (fun x => GRow (fst x) (snd x)) rs)).
  { clear E. induction H as [|[b [k v]] rs H1 H2 IH]; [reflexivity|]. cbn [map fst snd] in *. cbn [map_out].
    rewrite fields_row by tauto. cbn [bind]. now rewrite IH. }
  now rewrite M.
Qed.
Lemma records_okl : forall P labeled ls, records P labeled ls -> Forall (okl P) ls.
Proof.
  intros P labeled ls (rs & -> & H). constructor; [exact I|]. apply Forall_forall. intros l I. apply in_map_iff in I. destruct I as ([b [k v]] & <- & I).
  rewrite Forall_forall in H. specialize (H _ I). cbn [fst snd okl] in *. tauto.
Qed.
Lemma no_newline_dec : forall b, ~ In newline (dec b).
Proof. intros b I. pose proof (dec_tame b) as D. rewrite Forall_forall in D. destruct (D _ I) as (D1 & _). discriminate. Qed.
Lemma plain_inner : forall labeled l, okl plain l -> inner (okl unquoted) labeled l.
Proof.
  intros labeled [|b [k v]] H.
  - split; [exact I|]. exists (join_with comma (head_fields labeled)). split; [reflexivity|]. destruct labeled; vm_compute; intuition discriminate.
  - destruct H as [(K1 & K2 & _) (V1 & V2 & _)]. split; [now split|].
    exists (dec b ++ comma :: in_quotes k ++ (if labeled then comma :: in_quotes v else [])). split.
    + cbn [line_text]. repeat (rewrite <- app_assoc; cbn [app]). reflexivity.
    + unfold in_quotes, unquoted in *. intros I. apply in_app_iff in I. destruct I as [I|[I|[I|I]]]; try discriminate; [now apply no_newline_dec in I|].
      rewrite !in_app_iff in I. destruct I as [[I|[I|[]]]|I]; try discriminate; [now apply K2|].
      destruct labeled; [|destruct I]. destruct I as [I|[I|I]]; try discriminate. rewrite in_app_iff in I. destruct I as [I|[I|[]]]; try discriminate. now apply V2.
Qed.

Lemma blocks_read : forall labeled ls blocks, records plain labeled ls -> cut_at_lines blocks (group_text labeled ls) -> group_read labeled blocks = Ok ls.
Proof.
  intros labeled ls blocks R C. apply (read_fields plain); [exact R|]. apply blocks_csv; [|exact C].
  eapply Forall_impl; [|exact (records_okl _ _ _ R)]. intros l Hl. now apply plain_inner.
Qed.
Lemma one_block_read : forall labeled ls, records unquoted labeled ls -> group_read labeled [group_text labeled ls] = Ok ls.
Proof.
  intros labeled ls R. apply (read_fields unquoted); [exact R|]. cbn [csv_blocks]. rewrite text_csv by (eapply records_okl; exact R).
  now rewrite app_nil_r.
Qed.

(** A value with a quote is read as another value. *)
Lemma csv_grows : forall n s m v r rows, List.length s <= n -> m <> AtLine -> (m = AtValue -> v = []) -> csv m v r s = Some rows ->
  exists x rest rows', rows = (r ++ (v ++ x) :: rest) :: rows'.
Proof.
  induction n as [|n IH]; intros s m v r rows L M V E.
  - destruct s; [|cbn in L; lia]. destruct m; cbn [csv] in E; try congruence; injection E as <-; exists [], [], []; now rewrite app_nil_r.
  - destruct s as [|c t].
    { destruct m; cbn [csv] in E; try congruence; injection E as <-; exists [], [], []; now rewrite app_nil_r. }
    assert (Lt : List.length t <= n) by (cbn in L; lia).
    assert (NV : forall v' r' rows', csv AtValue v' (r' ++ [v]) t = Some rows' -> v' = [] -> exists x rest rs, rows' = (r' ++ (v ++ x) :: rest) :: rs).
    { intros v' r' rows' E' ->. destruct (IH t AtValue [] (r' ++ [v]) rows' Lt) as (x & rest & rs & ->); [discriminate|reflexivity|exact E'|].
      exists [], (([] ++ x) :: rest), rs. rewrite app_nil_r, <- app_assoc. reflexivity. }
    assert (PL : forall d rows', csv InPlain (v ++ [d]) r t = Some rows' -> exists x rest rs, rows' = (r ++ (v ++ x) :: rest) :: rs).
    { intros d rows' E'. destruct (IH t InPlain (v ++ [d]) r rows' Lt) as (x & rest & rs & ->); [discriminate|discriminate|exact E'|].
      exists (d :: x), rest, rs. now rewrite <- app_assoc. }
    destruct m; cbn [csv] in E; [congruence| | |].
    + specialize (V eq_refl). subst v. destruct (line_break c).
      * destruct (csv AtLine [] [] t) as [rs|]; [|discriminate]. injection E as <-. exists [], [], rs. reflexivity.
      * destruct (c =? comma)%N; [now apply (NV [])|]. cbn [andb] in E. destruct (c =? quote)%N; [|now apply (PL c)].
        destruct (IH t InQuotes [] r rows Lt) as (x & rest & rs & ->); [discriminate|discriminate|exact E|]. now exists x, rest, rs.
    + destruct (line_break c).
      * destruct (csv AtLine [] [] t) as [rs|]; [|discriminate]. injection E as <-. exists [], [], rs. now rewrite app_nil_r.
      * destruct (c =? comma)%N; [now apply (NV [])|]. cbn [andb] in E. now apply (PL c).
    + destruct (c =? quote)%N.
      * destruct t as [|c' t'].
        { destruct (IH [] InPlain v r rows Lt) as (x & rest & rs & ->); [discriminate|discriminate|exact E|]. now exists x, rest, rs. }
        destruct (c' =? quote)%N.
        { destruct (IH t' InQuotes (v ++ [quote]) r rows) as (x & rest & rs & ->); [cbn in Lt; lia|discriminate|discriminate|exact E|].
          exists (quote :: x), rest, rs. now rewrite <- app_assoc. }
        destruct (IH (c' :: t') InPlain v r rows Lt) as (x & rest & rs & ->); [discriminate|discriminate|exact E|]. now exists x, rest, rs.
      * destruct (IH t InQuotes (v ++ [c]) r rows Lt) as (x & rest & rs & ->); [discriminate|discriminate|exact E|].
        exists (c :: x), rest, rs. now rewrite <- app_assoc.
Qed.
Lemma csv_grows' : forall s m v r rows, m <> AtLine -> (m = AtValue -> v = []) -> csv m v r s = Some rows ->
  exists x rest rows', rows = (r ++ (v ++ x) :: rest) :: rows'.
Proof. intros s m v r rows. apply (csv_grows (List.length s)). lia. Qed.
Lemma row_head : forall (r : list bytes) a b x y (rs rs' : list (list bytes)), (r ++ a :: x) :: rs = (r ++ b :: y) :: rs' -> a = b.
Proof. intros r a b x y rs rs' E. injection E as E _. apply app_inv_head in E. now injection E as E _. Qed.
Lemma quotes_next : forall d t v r e rest rows, (d =? quote)%N = false -> csv InQuotes v r (d :: t) = Some ((r ++ (v ++ e) :: rest) :: rows) ->
  exists e', e = d :: e'.
Proof.
  intros d t v r e rest rows D E. cbn [csv] in E. rewrite D in E.
  apply (csv_grows (List.length t)) in E; [|lia|discriminate|discriminate]. destruct E as (x & rest' & rs & E).
  apply row_head in E. rewrite <- app_assoc in E. apply app_inv_head in E. now exists x.
Qed.
Lemma plain_next : forall d t v r z rest rows, (d =? quote)%N = false -> csv InPlain v r (d :: t) = Some ((r ++ (v ++ quote :: z) :: rest) :: rows) -> False.
Proof.
  intros d t v r z rest rows D E. cbn [csv] in E.
  assert (X : forall a : bytes, v = v ++ quote :: a -> False).
  { intros a H. apply (f_equal (@List.length N)) in H. rewrite app_length in H. cbn in H. lia. }
  destruct (line_break d).
  - destruct (csv AtLine [] [] t) as [rs|]; [|discriminate]. injection E as E _. apply app_inv_head in E. injection E as E _. exact (X _ E).
  - destruct (d =? comma)%N.
    + apply (csv_grows (List.length t)) in E; [|lia|discriminate|reflexivity]. destruct E as (x & rest' & rs & E).
      rewrite <- app_assoc in E. cbn [app] in E. apply row_head in E. symmetry in E. exact (X _ E).
    + cbn [andb] in E. apply (csv_grows (List.length t)) in E; [|lia|discriminate|discriminate]. destruct E as (x & rest' & rs & E).
      apply row_head in E. rewrite <- app_assoc in E. apply app_inv_head in E. injection E as E _. rewrite <- E in D. rewrite N.eqb_refl in D. discriminate.
Qed.
Lemma lagging : forall n w m v r c0 T rest rows, List.length w <= n -> (c0 =? quote)%N = false ->
  csv InQuotes v r (w ++ quote :: c0 :: T) = Some ((r ++ (v ++ repeat quote (S m) ++ w) :: rest) :: rows) -> False.
Proof.
  induction n as [|n IH]; intros w m v r c0 T rest rows L C E.
  - destruct w; [|cbn in L; lia]. cbn [app] in E. rewrite csv_close in E by exact C. exact (plain_next _ _ _ _ _ _ _ C E).
  - destruct w as [|d w]; [cbn [app] in E; rewrite csv_close in E by exact C; exact (plain_next _ _ _ _ _ _ _ C E)|].
    cbn [app] in E. destruct (d =? quote)%N eqn:D.
    2:{ apply quotes_next in E; [|exact D]. destruct E as (e' & E). cbn [repeat app] in E. injection E as E _. rewrite <- E, N.eqb_refl in D. discriminate. }
    apply N.eqb_eq in D. subst d. destruct w as [|d w]; cbn [app] in E.
    + cbn [csv] in E. rewrite N.eqb_refl in E. change (csv InQuotes (v ++ [quote]) r (c0 :: T) = Some ((r ++ (v ++ repeat quote (S m) ++ [quote]) :: rest) :: rows)) in E.
      replace (v ++ repeat quote (S m) ++ [quote]) with ((v ++ [quote]) ++ repeat quote (S m)) in E by (rewrite <- app_assoc; f_equal; change [quote] with (repeat quote 1); rewrite <- !repeat_app; f_equal; lia).
      apply quotes_next in E; [|exact C]. destruct E as (e' & E). cbn [repeat] in E. injection E as E _. rewrite <- E, N.eqb_refl in C. discriminate.
    + destruct (d =? quote)%N eqn:D.
      * apply N.eqb_eq in D. subst d. cbn [csv] in E. rewrite N.eqb_refl in E.
        apply (IH w (S m) (v ++ [quote]) r c0 T rest rows); [cbn in L; lia|exact C|]. rewrite E. do 4 f_equal.
        rewrite <- app_assoc. f_equal. change (quote :: quote :: w) with (repeat quote 2 ++ w). change ([quote]) with (repeat quote 1).
        rewrite !app_assoc, <- !repeat_app. do 2 f_equal. lia.
      * rewrite csv_close in E by exact D. cbn [repeat app] in E. exact (plain_next _ _ _ _ _ _ _ D E).
Qed.
Lemma misread : forall w v r c0 T rest rows, In quote w -> (c0 =? quote)%N = false ->
  csv InQuotes v r (w ++ quote :: c0 :: T) = Some ((r ++ (v ++ w) :: rest) :: rows) -> False.
Proof.
  induction w as [|d w IH]; intros v r c0 T rest rows I C E; [destruct I|]. cbn [app] in E.
  destruct (d =? quote)%N eqn:D.
  - apply N.eqb_eq in D. subst d. destruct w as [|d w]; cbn [app] in E.
    + cbn [csv] in E. rewrite N.eqb_refl in E. change (csv InQuotes (v ++ [quote]) r (c0 :: T) = Some ((r ++ (v ++ [quote]) :: rest) :: rows)) in E.
      rewrite <- (app_nil_r (v ++ [quote])) in E at 2. apply quotes_next in E; [|exact C]. destruct E as (e' & E). discriminate.
    + destruct (d =? quote)%N eqn:D.
      * apply N.eqb_eq in D. subst d. cbn [csv] in E. rewrite N.eqb_refl in E.
        apply (lagging (List.length w) w 0 (v ++ [quote]) r c0 T rest rows); [lia|exact C|]. rewrite E. do 4 f_equal. rewrite <- app_assoc. reflexivity.
      * rewrite csv_close in E by exact D. exact (plain_next _ _ _ _ _ _ _ D E).
  - cbn [csv] in E. rewrite D in E. apply (IH (v ++ [d]) r c0 T rest rows); [|exact C|].
    + destruct I as [->|I]; [rewrite N.eqb_refl in D; discriminate|exact I].
    + rewrite E. do 4 f_equal. now rewrite <- app_assoc.
Qed.

Definition reads_as (labeled : bool) (f : list bytes) (l : gline) : Prop :=
  match l with GHead => True | GRow _ (k, v) => exists b, f = if labeled then [b; k; v] else [b; k] end.
Definition novalue (labeled : bool) (l : gline) : Prop := match l with GHead => True | GRow _ (_, v) => labeled = false -> v = [] end.
Lemma read_unquoted : forall labeled ls rows, Forall (novalue labeled) ls -> csv AtLine [] [] (group_text labeled ls) = Some rows -> Forall2 (reads_as labeled) rows ls -> Forall (okl unquoted) ls.
Proof.
  intros labeled ls. induction ls as [|l ls IH]; intros rows NVs E F; [constructor|].
  inversion F as [|f ? rows' ? F1 F2]; subst. inversion NVs as [|? ? NV NV']; subst.
  unfold group_text in E. cbn [flat_map] in E. fold (group_text labeled ls) in E.
  assert (O : okl unquoted l).
  { destruct l as [|b [k v]]; [exact I|]. destruct F1 as (b' & ->). cbn [okl]. unfold unquoted.
    cbn [line_text] in E. rewrite <- app_assoc in E. cbn [app] in E. rewrite csv_first in E; [|now left|apply dec_tame|apply dec_spec].
    rewrite csv_comma in E. unfold in_quotes in E. cbn [app] in E. rewrite csv_open, <- !app_assoc in E. cbn [app] in E.
    assert (K : ~ In 34%N k).
    { intros I. assert (G : exists rest, csv InQuotes [] [dec b] (k ++ quote :: (if labeled then comma :: quote :: v ++ [quote] else []) ++ newline :: group_text labeled ls) = Some (([dec b] ++ ([] ++ k) :: rest) :: rows')).
      { pose proof E as E'. apply csv_grows' in E'; [|discriminate|discriminate].
        destruct E' as (x & rest & rs & E'). exists (if labeled then [v] else []). rewrite E. do 2 f_equal. destruct labeled; injection E' as -> _ _; reflexivity. }
      destruct G as (rest & G). destruct labeled; cbn [app] in G; eapply misread; try exact G; try exact I; reflexivity. }
    split; [exact K|]. destruct labeled.
    2:{ rewrite (NV eq_refl). intros []. }
    intros I. rewrite csv_quoted in E by exact K. cbn [app] in E. rewrite csv_close in E by reflexivity. rewrite csv_comma, csv_open, <- !app_assoc in E. cbn [app] in E.
    assert (B : b' = dec b).
    { apply csv_grows' in E; [|discriminate|discriminate]. destruct E as (x & rest & rs & E). now injection E as -> _ _. }
    subst b'. apply (misread v [] [dec b; k] newline (group_text true ls) [] rows' I eq_refl E). }
  rewrite line_csv in E by exact O. destruct (csv AtLine [] [] (group_text labeled ls)) as [rs|] eqn:Ers; [|discriminate].
  cbn [oapp] in E. injection E as _ ->. constructor; [exact O|]. exact (IH rows' NV' eq_refl F2).
Qed.
Lemma read_only_unquoted : forall labeled ls, records (fun _ => True) labeled ls -> group_read labeled [group_text labeled ls] = Ok ls -> records unquoted labeled ls.
Proof.
  intros labeled ls (rs & -> & H) E. unfold group_read in E. cbn [csv_blocks] in E.
  destruct (csv AtLine [] [] (group_text labeled (GHead :: map (fun x => GRow (fst x) (snd x)) rs))) as [rows|] eqn:C; [|discriminate].
  rewrite app_nil_r in E. destruct rows as [|h rows]; [discriminate|]. unfold enforce in E.
  destruct (list_eq_dec (list_eq_dec N.eq_dec) h (head_fields labeled)); [|discriminate].
  destruct (map_out (field_row labeled) rows) as [ls| | |] eqn:M; try discriminate. cbn [bind] in E. injection E as ->.
  apply map_out_ok_inv in M.
  assert (F : Forall (okl unquoted) (GHead :: map (fun x => GRow (fst x) (snd x)) rs)).
  { apply (read_unquoted labeled _ (h :: rows)); [|exact C|].
    - constructor; [exact I|]. apply Forall_forall. intros l I. apply in_map_iff in I. destruct I as ([b [k v]] & <- & I). rewrite Forall_forall in H. specialize (H _ I). cbn [novalue fst snd] in *. tauto.
    - constructor; [exact I|]. clear - M. induction M as [|f l rows ls M1 M2 IH]; constructor; [|exact IH].
      destruct labeled.
      + destruct f as [|b [|k [|v [|]]]]; cbn [field_row] in M1; try discriminate M1. destruct (atoi 9223372036854775808 b); [|discriminate]. injection M1 as <-. now exists b.
      + destruct f as [|b [|k [|? [|]]]]; cbn [field_row] in M1; try discriminate M1. destruct (atoi 9223372036854775808 b); [|discriminate]. injection M1 as <-. now exists b. }
  exists rs. split; [reflexivity|]. inversion F as [|? ? _ F']; subst. clear - H F'. rewrite Forall_forall in *. intros [b [k v]] I.
  specialize (H _ I). specialize (F' (GRow b (k, v)) (in_map (fun x => GRow (fst x) (snd x)) _ _ I)). cbn [okl fst snd] in *. tauto.
Qed.

(** Source tables. *)
Lemma open_csv : forall labeled ls t, Forall (okl unquoted) ls -> csv AtLine [] [] t = None -> csv AtLine [] [] (group_text labeled ls ++ t) = None.
Proof.
  intros labeled ls t F E. induction F as [|l ls H F IH]; [exact E|]. unfold group_text in *. cbn [flat_map]. rewrite <- app_assoc.
  rewrite line_csv by exact H. now rewrite IH.
Qed.
Lemma open_throws : forall labeled ls b k1 blocks, records unquoted labeled ls -> unquoted k1 ->
  group_read labeled ((group_text labeled ls ++ dec b ++ comma :: quote :: k1) :: blocks) = Throw.
Proof.
  intros labeled ls b k1 blocks R U. unfold group_read. cbn [csv_blocks]. rewrite open_csv; [reflexivity|exact (records_okl _ _ _ R)|].
  rewrite csv_first; [|now left|apply dec_tame|apply dec_spec]. rewrite csv_comma, csv_open, <- (app_nil_r k1), csv_quoted by exact U. reflexivity.
Qed.
Lemma rfc_inside : forall s v r t, csv InQuotes v r (flat_map (fun c => if (c =? 34)%N then [34%N; 34%N] else [c]) s ++ t) = csv InQuotes (v ++ s) r t.
Proof.
  induction s as [|c s IH]; intros v r t; cbn [flat_map app]; [now rewrite app_nil_r|]. destruct (c =? 34)%N eqn:C; rewrite <- app_assoc; cbn [app].
  - apply N.eqb_eq in C. subst c. cbn [csv]. change ((34 =? quote)%N) with true. cbn beta iota. rewrite IH, <- app_assoc. reflexivity.
  - cbn [csv]. change ((c =? quote)%N) with ((c =? 34)%N). rewrite C, IH, <- app_assoc. reflexivity.
Qed.
Lemma csv_open_line : forall t, csv AtLine [] [] (quote :: t) = csv InQuotes [] [] t.
Proof. reflexivity. Qed.
Lemma rfc_row : forall r t, csv AtLine [] [] (rfc_line r ++ t) = oapp [fst r; snd r] (csv AtLine [] [] t).
Proof.
  intros [k v] t. unfold rfc_line, rfc_value. cbn [fst snd]. repeat (rewrite <- app_assoc; cbn [app]).
  etransitivity; [apply csv_open_line|]. rewrite rfc_inside. cbn [app].
  etransitivity; [apply (csv_close comma); reflexivity|]. rewrite csv_comma.
  etransitivity; [apply csv_open|]. rewrite rfc_inside. cbn [app].
  etransitivity; [apply (csv_close newline); reflexivity|]. rewrite csv_end. unfold oapp. destruct (csv AtLine [] [] t); reflexivity.
Qed.
Lemma rfc_table : forall table, csv AtLine [] [] (flat_map rfc_line table) = Some (map (fun r => [fst r; snd r]) table).
Proof. induction table as [|r table IH]; [reflexivity|]. cbn [flat_map map]. rewrite rfc_row, IH. reflexivity. Qed.
Lemma source_read : forall table, source_rows (asc "key,value" ++ newline :: flat_map rfc_line table) = Ok (true, table).
Proof.
  intros table. unfold source_rows.
  assert (H : csv AtLine [] [] (asc "key,value" ++ newline :: flat_map rfc_line table) = oapp [asc "key"; asc "value"] (csv AtLine [] [] (flat_map rfc_line table))) by reflexivity.
  rewrite H, rfc_table. cbn [oapp]. destruct (list_eq_dec (list_eq_dec N.eq_dec) [asc "key"; asc "value"] [asc "key"; asc "value"]); [|congruence].
  assert (M : map_out (fun f => match f with [k; v] => Ok (k, v) | _ => Throw end) (map (fun r => [fst r; snd r]) table) = Ok table).
  { clear. induction table as [|[k v] table IH]; [reflexivity|]. cbn [map map_out fst snd bind]. now rewrite IH. }
  now rewrite M.
Qed.

(** A divided table. *)
Lemma divided_read : forall hash nb ng labeled table d, wide nb ng ->
  (forall k v, In (k, v) table -> plain k /\ plain v /\ (labeled = false -> v = [])) ->
  divide_group hash nb ng table (fresh_disk ng) = Ok d ->
  forall g file blocks, nth_error (gd_files d) g = Some file -> cut_at_lines blocks (group_text labeled file) ->
  group_read labeled blocks = Ok file.
Proof.
  intros hash nb ng labeled table d W H E g file blocks G C.
  assert (T : table <> []).
  { intros ->. unfold divide_group, fresh_disk in E. cbn [gd_divided] in E. match type of E with context [divide_writes ?a ?b ?c ?e] => destruct (divide_writes a b c e) end; cbn [bind enforce negb] in E; discriminate E. }
  destruct (divided_files hash nb ng table W T) as (d' & E' & _ & L & F). rewrite E in E'. injection E' as <-.
  assert (GL : g < N.to_nat ng) by (rewrite <- L; apply nth_error_Some; congruence). rewrite (F g GL) in G. injection G as <-.
  apply blocks_read; [|exact C]. exists (group_rows hash nb ng g table). split; [reflexivity|]. apply Forall_forall. intros [b [k v]] I.
  cbn [fst snd]. unfold group_rows in I. apply filter_In in I. destruct I as [I _]. unfold tagged in I. apply in_map_iff in I. destruct I as ([k' v'] & X & I). injection X as <- <- <-.
  destruct (H k' v' I) as (K & V & Z). split; [|tauto]. destruct W as [W _]. assert (hash k' mod nb < nb)%N by (apply N.mod_lt; lia). cbn [fst]. lia.
Qed.
