(** Property C98: what the coverage script reads before it counts. *)
From Coq Require Import Sorted.
From Verif Require Import Py PyFacts M_Files M_Coverage M_CoverageData T_Files T_Coverage.
Local Open Scope list_scope.
Local Open Scope Z_scope.

(** * Specification *)

(** dates and their order *)
Fixpoint num_rev (l : pystr) : Z := match l with [] => 0 | c :: l' => (Z.of_N c - 48) + 10 * num_rev l' end.
Definition numeral (s : pystr) : Z := num_rev (rev s).
Definition digits_ (s : pystr) : Prop := s <> [] /\ forall c, In c s -> (48 <= c <= 57)%N.
Definition written (s : pystr) (d : date) : Prop :=
  exists a b c, digits_ a /\ digits_ b /\ digits_ c /\ s = a ++ lit "-" ++ b ++ lit "-" ++ c /\
    d = Date (numeral a) (numeral b) (numeral c).
Definition before (a b : date) : Prop :=
  year a < year b \/ (year a = year b /\ (month a < month b \/ (month a = month b /\ day a < day b))).
Definition a_day (n : date) : Prop := 1 <= year n <= 9999 /\ 1 <= month n <= 12 /\ 1 <= day n <= 31.
(** a currency in use on a day; a limit that is not given is none *)
Definition dates_written (c : currency) : Prop :=
  (forall s, from_ c = Some s -> exists d, written s d) /\ (forall s, to_ c = Some s -> exists d, written s d).
Definition in_use (n : date) (c : currency) : Prop :=
  (forall s d, from_ c = Some s -> written s d -> ~ before n d) /\
  (forall s d, to_ c = Some s -> written s d -> ~ before d n).
(** the first of a territory's currencies that is in use *)
Definition its_currency (n : date) (cs : list currency) (x : pystr) : Prop :=
  exists a c b, cs = a ++ c :: b /\ code c = x /\ in_use n c /\ forall c', In c' a -> ~ in_use n c'.

(** a list of words with spaces between them *)
Definition words (s : pystr) (ws : list pystr) : Prop :=
  ws <> [] /\ s = join (lit " ") ws /\ forall w, In w ws -> ~ In 32%N w.

(** str.replace *)
Inductive replaced (old new : pystr) : pystr -> pystr -> Prop :=
  | R_end : replaced old new [] []
  | R_hit s t : replaced old new s t -> replaced old new (old ++ s) (new ++ t)
  | R_skip c s t : (forall r, c :: s <> old ++ r) -> replaced old new s t -> replaced old new (c :: s) (c :: t).

(** an attribute as a part of an expression: double quotes, and brackets that stand for themselves *)
Definition quoted (v : pystr) : pystr :=
  flat_map (fun c => if N.eqb c 39 then lit """" else if N.eqb c 91 then lit "\[" else if N.eqb c 93 then lit "\]" else [c]) v.
Definition attr (a : attrs) (k : pystr) : option pystr := dget streq a k.

(** * Proofs: dates *)
Lemma num_rev_app a c : num_rev (rev (a ++ [c])) = 10 * num_rev (rev a) + (Z.of_N c - 48).
Proof. rewrite rev_app_distr. cbn. lia. Qed.
Lemma dec_numeral s : dec s = numeral s.
Proof.
  unfold numeral, dec. induction s as [|c s IH] using rev_ind; [reflexivity|].
  rewrite fold_left_app, IH, num_rev_app. reflexivity.
Qed.
Lemma int_digits s : digits_ s -> int_ s = Ok (numeral s).
Proof.
  intros [Hne Hd]. unfold int_. destruct s as [|c s]; [congruence|].
  assert (E : forallb is_digit (c :: s) = true).
  { apply forallb_forall. intros x Hx. apply Hd in Hx. unfold is_digit. apply andb_true_iff. split; now apply N.leb_le. }
  rewrite E. now rewrite dec_numeral.
Qed.
Lemma digits_nosep s : digits_ s -> ~ In 45%N s.
Proof. intros [_ H] F. apply H in F. lia. Qed.
Lemma cmp_spec a b : (cmp_ a b < 0 <-> a < b) /\ (cmp_ a b > 0 <-> b < a) /\ (cmp_ a b = 0 <-> a = b).
Proof. unfold cmp_. destruct (Z.ltb_spec a b); [lia|]. destruct (Z.gtb_spec a b); lia. Qed.
Lemma compare_written n s d : written s d ->
  exists r, compare_now n s = Ok r /\ (r < 0 <-> before n d) /\ (r > 0 <-> before d n).
Proof.
  intros (a & b & c & Ha & Hb & Hc & -> & ->). unfold compare_now.
  replace (a ++ lit "-" ++ b ++ lit "-" ++ c) with (join [45%N] [a; b; c]) by reflexivity.
  rewrite split_join by (try discriminate; repeat constructor; now apply digits_nosep).
  cbn [ints]. rewrite !int_digits by assumption. cbn [bind at_ nth_error].
  unfold before. cbn [year month day].
  pose proof (cmp_spec (year n) (numeral a)) as (A1 & A2 & A3).
  pose proof (cmp_spec (month n) (numeral b)) as (B1 & B2 & B3).
  pose proof (cmp_spec (day n) (numeral c)) as (C1 & C2 & C3).
  destruct (Z.eqb_spec (cmp_ (year n) (numeral a)) 0) as [E|E]; cbn [negb].
  - destruct (Z.eqb_spec (cmp_ (month n) (numeral b)) 0) as [E2|E2]; cbn [negb]; eexists; (split; [reflexivity|]); lia.
  - eexists; (split; [reflexivity|]). lia.
Qed.
Lemma written_fun s d d' : written s d -> written s d' -> d = d'.
Proof.
  intros (a & b & c & Ha & Hb & Hc & -> & ->) (a' & b' & c' & Ha' & Hb' & Hc' & E & ->).
  change (join [45%N] [a; b; c] = join [45%N] [a'; b'; c']) in E.
  apply (f_equal (split_on 45)) in E.
  rewrite !split_join in E by (try discriminate; repeat constructor; now apply digits_nosep).
  now injection E as -> -> ->.
Qed.
Ltac digs := split; [discriminate|intros c Hc; cbn in Hc; lia].
Lemma written_low : written (lit "0000-00-00") (Date 0 0 0).
Proof. exists (lit "0000"), (lit "00"), (lit "00"). split; [digs|]. split; [digs|]. split; [digs|]. split; reflexivity. Qed.
Lemma written_high : written (lit "9999-99-99") (Date 9999 99 99).
Proof. exists (lit "9999"), (lit "99"), (lit "99"). split; [digs|]. split; [digs|]. split; [digs|]. split; reflexivity. Qed.

Lemma first_current_spec n cs : a_day n -> (forall c, In c cs -> dates_written c) ->
  exists o, first_current n cs = Ok o /\
    match o with Some x => its_currency n cs x | None => forall c, In c cs -> ~ in_use n c end.
Proof.
  intros Hn. induction cs as [|c cs IH]; intros Hc; [exists None; split; [reflexivity|intros c []]|].
  destruct (IH (fun c' H => Hc c' (or_intror H))) as (o & Ho & Hs).
  assert (Hskip : ~ in_use n c -> match o with Some x => its_currency n (c :: cs) x | None => forall c', In c' (c :: cs) -> ~ in_use n c' end).
  { intros Hno. destruct o as [x|].
    - destruct Hs as (a & c' & b & -> & Hx & Hu & Ha). exists (c :: a), c', b. repeat split; auto; try apply Hu.
      intros y [<-|Hy]; auto.
    - intros c' [<-|H]; auto. }
  destruct (Hc c (or_introl eq_refl)) as [Hf Ht]. cbn [first_current].
  (* the lower limit *)
  assert (F : exists r, compare_now n (dflt (lit "0000-00-00") (from_ c)) = Ok r /\
              (r < 0 <-> exists s d, from_ c = Some s /\ written s d /\ before n d)).
  { destruct (from_ c) as [s|] eqn:E; cbn [dflt].
    - destruct (Hf s eq_refl) as (d & Hd). destruct (compare_written n s d Hd) as (r & -> & H1 & _).
      exists r. split; [reflexivity|]. rewrite H1. split; [intros B; exists s, d; auto|].
      intros (s' & d' & E' & W & B). injection E' as <-. now rewrite (written_fun _ _ _ Hd W).
    - destruct (compare_written n _ _ written_low) as (r & -> & H1 & _). exists r. split; [reflexivity|]. rewrite H1.
      split; [|intros (s & d & F & _); discriminate]. unfold before, a_day in *. cbn. lia. }
  destruct F as (r & -> & Hr). cbn [bind]. destruct (Z.ltb_spec r 0) as [L|L].
  { exists o. split; [exact Ho|]. apply Hskip. intros [U _]. apply Hr in L as (s & d & E & W & B). exact (U s d E W B). }
  assert (G : exists r, compare_now n (dflt (lit "9999-99-99") (to_ c)) = Ok r /\
              (r > 0 <-> exists s d, to_ c = Some s /\ written s d /\ before d n)).
  { destruct (to_ c) as [s|] eqn:E; cbn [dflt].
    - destruct (Ht s eq_refl) as (d & Hd). destruct (compare_written n s d Hd) as (q & -> & _ & H1).
      exists q. split; [reflexivity|]. rewrite H1. split; [intros B; exists s, d; auto|].
      intros (s' & d' & E' & W & B). injection E' as <-. now rewrite (written_fun _ _ _ Hd W).
    - destruct (compare_written n _ _ written_high) as (q & -> & _ & H1). exists q. split; [reflexivity|]. rewrite H1.
      split; [|intros (s & d & F & _); discriminate]. unfold before, a_day in *. cbn. lia. }
  destruct G as (q & -> & Hq). cbn [bind]. destruct (Z.gtb_spec q 0) as [L2|L2].
  { exists o. split; [exact Ho|]. apply Hskip. intros [_ U]. apply Z.lt_gt, Hq in L2 as (s & d & E & W & B). exact (U s d E W B). }
  exists (Some (code c)). split; [reflexivity|]. exists [], c, cs. repeat split; auto.
  - intros s d E W B. assert (r < 0) by (apply Hr; eauto). lia.
  - intros s d E W B. assert (q > 0) by (apply Hq; eauto). lia.
Qed.

(** * C98: currencies *)
Theorem C98_currencies : forall n l,
  a_day n -> (forall r cs, In (r, cs) l -> forall c, In c cs -> dates_written c) ->
  exists cur, read_currencies n [] l = Ok cur /\
    forall r x, dget streq cur r = Some x <->
      exists a cs b, l = a ++ (r, cs) :: b /\ its_currency n cs x /\
        forall cs', In (r, cs') b -> forall c, In c cs' -> ~ in_use n c.
Proof.
  intros n l Hn Hl.
  assert (G : forall l cur0, (forall r cs, In (r, cs) l -> forall c, In c cs -> dates_written c) ->
    exists cur, read_currencies n cur0 l = Ok cur /\
    forall r x, dget streq cur r = Some x <->
      (dget streq cur0 r = Some x /\ forall cs', In (r, cs') l -> forall c, In c cs' -> ~ in_use n c) \/
      exists a cs b, l = a ++ (r, cs) :: b /\ its_currency n cs x /\
        forall cs', In (r, cs') b -> forall c, In c cs' -> ~ in_use n c).
  { clear l Hl. induction l as [|[r0 cs0] l IH]; intros cur0 Hl.
    - exists cur0. split; [reflexivity|]. intros r x. split; [intros H; left; split; [exact H|intros ? []]|].
      intros [[H _]|(a & cs & b & E & _)]; [exact H|]. destruct a; discriminate.
    - cbn [read_currencies].
      destruct (first_current_spec n cs0 Hn (Hl r0 cs0 (or_introl eq_refl))) as (o & -> & Ho). cbn [bind].
      destruct (IH (match o with Some x => dset streq cur0 r0 x | None => cur0 end) (fun r cs H => Hl r cs (or_intror H))) as (cur & -> & Hcur).
      exists cur. split; [reflexivity|]. intros r x. rewrite Hcur. split.
      + intros [[H1 H2]|(a & cs & b & -> & H1 & H2)].
        * destruct o as [y|].
          -- destruct (streq_spec r r0) as [->|Hne].
             ++ rewrite (dget_dset_same _ streq_spec) in H1. injection H1 as ->.
                right. exists [], cs0, l. auto.
             ++ rewrite (dget_dset_other _ streq_spec) in H1 by exact Hne. left. split; [exact H1|].
                intros cs' [E|H]; [injection E as -> _; congruence|eauto].
          -- left. split; [exact H1|]. intros cs' [E|H]; [injection E as -> ->; exact Ho|eauto].
        * right. exists ((r0, cs0) :: a), cs, b. auto.
      + intros [[H1 H2]|(a & cs & b & E & H1 & H2)].
        * left. split; [|intros cs' H; apply H2; now right].
          destruct o as [y|]; [|exact H1].
          destruct (streq_spec r r0) as [->|Hne]; [|now rewrite (dget_dset_other _ streq_spec)].
          exfalso. destruct Ho as (a & c & b & -> & _ & Hu & _).
          apply (H2 _ (or_introl eq_refl) c); [apply in_or_app; right; now left|exact Hu].
        * destruct a as [|p a]; cbn in E.
          -- injection E as -> -> ->. left. split; [|exact H2].
             assert (o = Some x) as ->; [|apply (dget_dset_same _ streq_spec)].
             destruct H1 as (a1 & c1 & b1 & -> & Hx & Hu & Ha). destruct o as [y|].
             ++ destruct Ho as (a2 & c2 & b2 & E & Hy & Hu2 & Ha2). f_equal. subst.
                assert (a1 = a2 /\ c1 = c2) as [_ ->]; [|reflexivity].
                clear -E Ha Ha2 Hu Hu2. revert a2 E Ha Ha2.
                induction a1 as [|z a1 IH]; intros [|w a2] E Ha Ha2; cbn in E; injection E as E1 E2.
                ** auto.
                ** subst. exfalso. apply (Ha2 w); [now left|exact Hu].
                ** subst. exfalso. apply (Ha c2); [now left|exact Hu2].
                ** subst. destruct (IH a2 E2) as [-> ->]; auto.
                   --- intros c' H. apply Ha. now right.
                   --- intros c' H. apply Ha2. now right.
             ++ exfalso. apply (Ho c1); [apply in_or_app; right; now left|exact Hu].
          -- injection E as _ E2. right. subst. exists a, cs, b. auto. }
  destruct (G l [] Hl) as (cur & Hc & H). exists cur. split; [exact Hc|]. intros r x. rewrite H. split; [|tauto].
  intros [[F _]|F]; [discriminate|exact F].
Qed.
Print Assumptions C98_currencies.
Example C98_currencies_case : let n := Date 2026 11 17 in
  let l := [(lit "DE", [Cur (Some (lit "1948-06-20")) (Some (lit "2002-02-28")) (lit "DEM"); Cur (Some (lit "1999-01-01")) None (lit "EUR")])] in
  a_day n /\ read_currencies n [] l = Ok [(lit "DE", lit "EUR")] /\
  forall r cs, In (r, cs) l -> forall c, In c cs -> dates_written c.
Proof.
  cbn zeta. split; [unfold a_day; cbn; lia|]. split; [reflexivity|].
  assert (W : forall y m d, digits_ y -> digits_ m -> digits_ d -> written (y ++ lit "-" ++ m ++ lit "-" ++ d) (Date (numeral y) (numeral m) (numeral d))).
  { intros y m d A B C. exists y, m, d. auto. }
  intros r cs [E|[]]. injection E as <- <-. intros c [<-|[<-|[]]]; split; cbn; intros s E; try discriminate; injection E as <-; eexists.
  - apply (W (lit "1948") (lit "06") (lit "20")); digs.
  - apply (W (lit "2002") (lit "02") (lit "28")); digs.
  - apply (W (lit "1999") (lit "01") (lit "01")); digs.
Qed.

(** A date of this year without its month ends the script with an error. *)
Theorem C98_year_refuted : forall n s r x, digits_ s -> numeral s = year n ->
  read_currencies n [] [(r, [Cur (Some s) None x])] = Raise IndexError.
Proof.
  intros n s r x Hs Hy. cbn [read_currencies first_current from_ dflt]. unfold compare_now.
  rewrite split_on_nosep by (now apply digits_nosep). cbn [ints]. rewrite int_digits by exact Hs.
  cbn [bind at_ nth_error]. rewrite Hy. unfold cmp_. rewrite Z.ltb_irrefl.
  assert (Z.gtb (year n) (year n) = false) as -> by (rewrite Z.gtb_ltb; apply Z.ltb_irrefl). reflexivity.
Qed.
Example C98_year_case : digits_ (lit "2026") /\ numeral (lit "2026") = year (Date 2026 11 17).
Proof. split; [digs|reflexivity]. Qed.

(** * C98: calendars *)
Lemma calendars_fold (cs : list pystr) ts : forall cal t,
  dget streq (fold_left (fun cal t => dset streq cal t cs) ts cal) t =
  if existsb (streq t) ts then Some cs else dget streq cal t.
Proof.
  induction ts as [|u ts IH]; intros cal t; [reflexivity|]. cbn [fold_left existsb]. rewrite IH.
  destruct (existsb (streq t) ts); [now rewrite orb_true_r|]. rewrite orb_false_r.
  destruct (streq_spec t u) as [->|Hne]; [apply (dget_dset_same _ streq_spec)|now apply (dget_dset_other _ streq_spec)].
Qed.
Lemma words_split s ws : words s ws -> split_on 32 s = ws.
Proof.
  intros (Hne & -> & Hw). apply split_join; [exact Hne|]. now apply Forall_forall.
Qed.
Lemma split_words s : words s (split_on 32 s).
Proof.
  split; [apply split_on_nonempty|]. split; [symmetry; apply join_split|]. intros w. apply split_on_In.
Qed.
Theorem C98_calendars : forall l t cs,
  dget streq (read_calendars l) t = Some cs <->
  exists a o ts b, l = a ++ (o, ts) :: b /\ words o cs /\ (exists ws, words ts ws /\ In t ws) /\
    forall o' ts' ws, In (o', ts') b -> words ts' ws -> ~ In t ws.
Proof.
  intros l t cs. unfold read_calendars.
  assert (G : forall l cal, dget streq (fold_left add_calendar l cal) t = Some cs <->
    (dget streq cal t = Some cs /\ forall o' ts' ws, In (o', ts') l -> words ts' ws -> ~ In t ws) \/
    exists a o ts b, l = a ++ (o, ts) :: b /\ words o cs /\ (exists ws, words ts ws /\ In t ws) /\
    forall o' ts' ws, In (o', ts') b -> words ts' ws -> ~ In t ws).
  { clear l. induction l as [|[o ts] l IH]; intros cal.
    - cbn. split; [intros H; left; split; [exact H|intros ? ? ? []]|].
      intros [[H _]|(a & o & ts & b & E & _)]; [exact H|]. destruct a; discriminate.
    - cbn [fold_left]. rewrite IH. unfold add_calendar at 1. cbn [fst snd]. rewrite calendars_fold.
      assert (X : existsb (streq t) (split_on 32 ts) = true <-> exists ws, words ts ws /\ In t ws).
      { rewrite existsb_exists. split.
        - intros (u & Hu & E). apply streq_true in E. subst u. exists (split_on 32 ts). split; [apply split_words|exact Hu].
        - intros (ws & W & Hi). exists t. split; [now rewrite (words_split _ _ W)|apply streq_refl]. }
      split.
      + intros [[H1 H2]|(a & o1 & ts1 & b & -> & H)].
        * destruct (existsb (streq t) (split_on 32 ts)).
          -- injection H1 as <-. right. exists [], o, ts, l. repeat split; auto.
             ++ apply split_on_nonempty.
             ++ symmetry. apply join_split.
             ++ intros w. apply split_on_In.
             ++ now apply X.
          -- left. split; [exact H1|]. intros o' ts' ws [E|Hi] W Ht; [|exact (H2 _ _ _ Hi W Ht)].
             injection E as -> ->. assert (false = true) by (apply X; eauto). discriminate.
        * right. exists ((o, ts) :: a), o1, ts1, b. auto.
      + intros [[H1 H2]|(a & o1 & ts1 & b & E & Ho & Ht & Hb)].
        * left. split; [|intros o' ts' ws Hi; apply (H2 o'); now right].
          destruct (existsb (streq t) (split_on 32 ts)); [|exact H1].
          exfalso. destruct (proj1 X eq_refl) as (ws & W & Hi). exact (H2 o ts ws (or_introl eq_refl) W Hi).
        * destruct a as [|p a]; cbn in E.
          -- injection E as -> -> ->. left. split; [|exact Hb].
             apply X in Ht. rewrite Ht. now rewrite (words_split _ _ Ho).
          -- injection E as _ E2. right. subst. exists a, o1, ts1, b. auto. }
  rewrite G. split; [|tauto]. intros [[F _]|F]; [discriminate|exact F].
Qed.
Print Assumptions C98_calendars.
Example C98_calendars_case :
  read_calendars [(lit "gregorian", lit "001"); (lit "persian gregorian", lit "AF IR")] =
  [(lit "001", [lit "gregorian"]); (lit "AF", [lit "persian"; lit "gregorian"]); (lit "IR", [lit "persian"; lit "gregorian"])].
Proof. reflexivity. Qed.

(** * C98: variables *)
Lemma strip_prefix_spec p s : match strip_prefix p s with Some r => s = p ++ r | None => forall r, s <> p ++ r end.
Proof.
  revert s; induction p as [|x p IH]; intros s; [reflexivity|]. destruct s as [|y s]; cbn; [discriminate|].
  destruct (N.eqb_spec x y) as [->|Hne].
  - specialize (IH s). destruct (strip_prefix p s); [now subst|]. intros r E. injection E as E. now apply (IH r).
  - intros r E. congruence.
Qed.
Lemma replace_replaced old new : old <> [] -> forall f s, (length s < f)%nat -> replaced old new s (replace_ f old new s).
Proof.
  intros Ho. induction f as [|f IH]; intros s Hs; [lia|]. cbn [replace_].
  pose proof (strip_prefix_spec old s) as P. destruct (strip_prefix old s) as [r|].
  - subst s. apply R_hit, IH. rewrite app_length in Hs. destruct old; [congruence|]. cbn in Hs. lia.
  - destruct s as [|c s]; [constructor|]. apply R_skip; [exact P|]. apply IH. cbn in Hs. lia.
Qed.
Lemma replaced_fun old new : old <> [] -> forall s t, replaced old new s t -> forall t', replaced old new s t' -> t = t'.
Proof.
  intros Ho. induction 1 as [|s t H IH|c s t Hn H IH]; intros t' H'.
  - inversion H' as [E1 E2|s1 t1 H1 E1 E2|]; [reflexivity|]. destruct old; [congruence|discriminate].
  - inversion H' as [E1 E2|s1 t1 H1 E1 E2|c1 s1 t1 Hn1 H1 E1 E2].
    + destruct old; [congruence|discriminate].
    + apply app_inv_head in E1. subst. f_equal. now apply IH.
    + exfalso. now apply (Hn1 s).
  - inversion H' as [E1 E2|s1 t1 H1 E1 E2|c1 s1 t1 Hn1 H1 E1 E2].
    + exfalso. now apply (Hn s1).
    + subst. f_equal. now apply IH.
Qed.
Lemma var_value_spec v w : var_value v = w <-> exists m, replaced (lit "++") (lit "+") v m /\ replaced (lit "\x{22}") (lit """") m w.
Proof.
  unfold var_value, py_replace.
  assert (A : forall old new s, old <> [] -> replaced old new s (replace_ (S (length s)) old new s)).
  { intros old new s Ho. apply replace_replaced; [exact Ho|lia]. }
  split.
  - intros <-. eexists. split; [apply A; discriminate|apply A; discriminate].
  - intros (m & H1 & H2).
    assert (E : replace_ (S (length v)) (lit "++") (lit "+") v = m).
    { apply (replaced_fun (lit "++") (lit "+")) with (s := v); [discriminate|apply A; discriminate|exact H1]. }
    rewrite E. apply (replaced_fun (lit "\x{22}") (lit """")) with (s := m); [discriminate|apply A; discriminate|exact H2].
Qed.
Theorem C98_variables : forall l : list (pystr * pystr),
  exists d, read_vars [] (map (fun kv => (Some (fst kv), Some (snd kv))) l) = Ok d /\
    forall name w, dget streq d name = Some w <->
      exists a k v b, l = a ++ (k, v) :: b /\ tl k = name /\ (forall k' v', In (k', v') b -> tl k' <> name) /\
        exists m, replaced (lit "++") (lit "+") v m /\ replaced (lit "\x{22}") (lit """") m w.
Proof.
  intros l.
  assert (G : forall l d0, exists d, read_vars d0 (map (fun kv => (Some (fst kv), Some (snd kv))) l) = Ok d /\
    forall name w, dget streq d name = Some w <->
      (dget streq d0 name = Some w /\ forall k' v', In (k', v') l -> tl k' <> name) \/
      exists a k v b, l = a ++ (k, v) :: b /\ tl k = name /\ (forall k' v', In (k', v') b -> tl k' <> name) /\ var_value v = w).
  { clear l. induction l as [|[k v] l IH]; intros d0.
    - exists d0. split; [reflexivity|]. intros name w. split; [intros H; left; split; [exact H|intros ? ? []]|].
      intros [[H _]|(a & k & v & b & E & _)]; [exact H|]. destruct a; discriminate.
    - cbn [map read_vars add_var fst snd bind]. destruct (IH (dset streq d0 (tl k) (var_value v))) as (d & Hd & H).
      exists d. split; [exact Hd|]. intros name w. rewrite H. split.
      + intros [[H1 H2]|(a & k1 & v1 & b & -> & H1)].
        * destruct (streq_spec name (tl k)) as [->|Hne].
          -- rewrite (dget_dset_same _ streq_spec) in H1. injection H1 as H1. right. exists [], k, v, l. auto.
          -- rewrite (dget_dset_other _ streq_spec) in H1 by exact Hne. left. split; [exact H1|].
             intros k' v' [E|Hi]; [injection E as <- _; congruence|eauto].
        * right. exists ((k, v) :: a), k1, v1, b. auto.
      + intros [[H1 H2]|(a & k1 & v1 & b & E & H1 & H2 & H3)].
        * left. split; [|intros k' v' Hi; apply (H2 k' v'); now right].
          rewrite (dget_dset_other _ streq_spec); [exact H1|]. intros ->. exact (H2 k v (or_introl eq_refl) eq_refl).
        * destruct a as [|p a]; cbn in E.
          -- injection E as -> -> ->. left. split; [|exact H2]. rewrite <- H1, <- H3. apply (dget_dset_same _ streq_spec).
          -- injection E as _ E2. right. subst. exists a, k1, v1, b. auto. }
  destruct (G l []) as (d & Hd & H). exists d. split; [exact Hd|]. intros name w. rewrite H. split.
  - intros [[F _]|(a & k & v & b & H1 & H2 & H3 & H4)]; [discriminate|].
    exists a, k, v, b. repeat split; auto. now apply var_value_spec.
  - intros (a & k & v & b & H1 & H2 & H3 & H4). right. exists a, k, v, b. repeat split; auto. now apply var_value_spec.
Qed.
Print Assumptions C98_variables.
Example C98_variables_case : read_vars [] [(Some (lit "%x"), Some (lit "[^\x{22}]++")); (Some (lit "%y"), Some (lit "(a|b)"))] =
  Ok [(lit "x", lit "[^""]+"); (lit "y", lit "(a|b)")].
Proof. reflexivity. Qed.

(** * C98: levels *)
Lemma replace1 c new f : forall s, (length s < f)%nat -> replace_ f [c] new s = flat_map (fun x => if N.eqb x c then new else [x]) s.
Proof.
  induction f as [|f IH]; intros s Hs; [lia|]. cbn [replace_]. destruct s as [|x s]; [reflexivity|].
  cbn [strip_prefix flat_map]. rewrite N.eqb_sym. destruct (N.eqb x c).
  - rewrite IH by (cbn in Hs; lia). reflexivity.
  - rewrite IH by (cbn in Hs; lia). reflexivity.
Qed.
Lemma fix_quoted v : fix_attr v = quoted v.
Proof.
  unfold fix_attr, py_replace, quoted. rewrite !replace1 by lia.
  induction v as [|c v IH]; [reflexivity|]. cbn [flat_map]. rewrite !flat_map_app, IH. f_equal.
  destruct (N.eqb_spec c 39) as [->|H1]; [reflexivity|].
  cbn [flat_map]. rewrite app_nil_r. destruct (N.eqb_spec c 91) as [->|H2]; [reflexivity|].
  cbn [flat_map]. rewrite app_nil_r. destruct (N.eqb c 93); reflexivity.
Qed.
Lemma obj_get a k : k <> lit "value" -> dget streq (obj a) k = option_map quoted (attr a k).
Proof.
  intros Hk. unfold obj, attr. induction a as [|[k' v] a IH]; [reflexivity|]. cbn [filter fst].
  destruct (streq_spec k' (lit "value")) as [->|Hne]; cbn [negb].
  - rewrite IH. cbn [dget]. destruct (streq_spec k (lit "value")); [congruence|reflexivity].
  - cbn [map fst snd dget]. destruct (streq k k'); [cbn [option_map]; now rewrite fix_quoted|exact IH].
Qed.
Definition level_of (a : attrs) : clevel :=
  Cl (option_map quoted (attr a (lit "inLanguage"))) (option_map quoted (attr a (lit "inScript")))
     (option_map quoted (attr a (lit "inTerritory"))) (option_map quoted (attr a (lit "match"))).
Lemma as_level_spec a : as_level a = level_of a.
Proof. unfold as_level, level_of. cbn zeta. rewrite !obj_get by discriminate. reflexivity. Qed.

Theorem C98_levels : forall l, (forall a, In a l -> exists v, attr a (lit "value") = Some v) ->
  NoDup (dkeys (read_levels l)) /\
  forall v, dget streq (read_levels l) v =
    match filter (fun a => match attr a (lit "value") with Some w => streq v w | None => false end) l with
    | [] => None
    | l' => Some (map (fun a => (level_of a, None)) l')
    end.
Proof.
  intros l Hl. unfold read_levels.
  set (P := fun v a => match attr a (lit "value") with Some w => streq v w | None => false end).
  assert (G : forall l d, (forall a, In a l -> exists v, attr a (lit "value") = Some v) -> NoDup (dkeys d) ->
    NoDup (dkeys (fold_left add_level l d)) /\
    forall v, dget streq (fold_left add_level l d) v =
      match filter (P v) l with
      | [] => dget streq d v
      | l' => Some ((match dget streq d v with Some x => x | None => [] end) ++ map (fun a => (level_of a, None)) l')
      end).
  { clear l Hl. induction l as [|a l IH]; intros d Hl Hd; [split; [exact Hd|reflexivity]|].
    destruct (Hl a (or_introl eq_refl)) as (w & Hw). cbn [fold_left].
    destruct (IH (add_level d a)) as [H1 H2].
    { intros a' H. apply Hl. now right. }
    { unfold add_level. now apply (dset_NoDup _ streq_spec). }
    split; [exact H1|]. intros v. rewrite H2. cbn [filter]. assert (EP : P v a = streq v w) by (unfold P; now rewrite Hw). rewrite EP. clear EP.
    unfold add_level, value_of. unfold attr in Hw. rewrite Hw. cbn [opt]. rewrite as_level_spec.
    destruct (streq_spec v w) as [->|Hne].
    - rewrite (dget_dset_same _ streq_spec). cbn [map].
      destruct (filter (P w) l) as [|b l']; [reflexivity|]. rewrite <- app_assoc. reflexivity.
    - rewrite (dget_dset_other _ streq_spec) by exact Hne. reflexivity. }
  destruct (G l [] Hl) as [H1 H2]; [constructor|]. split; [exact H1|]. intros v. rewrite H2. fold P.
  change (fun a => match attr a (lit "value") with Some w => streq v w | None => false end) with (P v).
  destruct (filter (P v) l); reflexivity.
Qed.
Print Assumptions C98_levels.
Example C98_levels_case :
  read_levels [[(lit "inLanguage", lit "%x"); (lit "value", lit "basic"); (lit "match", lit "a[@type='b']")]] =
  [(lit "basic", [(Cl (Some (lit "%x")) None None (Some (lit "a\[@type=""b""\]")), None)])].
Proof. reflexivity. Qed.

(** * C98: locales *)
Lemma stem4_xml x : stem4 (x ++ lit ".xml") = x.
Proof.
  unfold stem4. rewrite app_length. change (length (lit ".xml")) with 4%nat.
  replace (length x + 4 - 4)%nat with (length x + 0)%nat by lia. rewrite firstn_app_2. apply app_nil_r.
Qed.
Theorem C98_locales : forall dirs,
  exists l, locales [] (Some dirs) = Ok l /\ NoDup l /\ StronglySorted (fun a b => strleb a b = true) l /\
    forall x, In x l <-> exists d name sub, In d dirs /\ In (name, sub) d /\
      (name = x ++ lit ".xml" \/
       (endswith (lit ".xml") name = false /\ exists names, sub = Some names /\ In (x ++ lit ".xml") names)).
Proof.
  intros dirs. eexists. split; [reflexivity|]. set (L := flat_map (flat_map of_entry) dirs).
  destruct (to_set_spec L) as [N1 N2]. pose proof (isort_perm strleb (to_set L)) as P. split; [|split].
  - eapply Permutation.Permutation_NoDup; [exact P|exact N1].
  - apply isort_sorted; [exact strleb_total|exact strleb_trans].
  - intros x. assert (E : In x (isort strleb (to_set L)) <-> In x L).
    { rewrite <- N2. split; intros H; [apply (Permutation.Permutation_in _ (Permutation.Permutation_sym P) H)|apply (Permutation.Permutation_in _ P H)]. }
    rewrite E. unfold L. rewrite in_flat_map. split.
    + intros (d & Hd & H). apply in_flat_map in H as ([name sub] & He & H). exists d, name, sub. split; [exact Hd|]. split; [exact He|].
      unfold of_entry in H. cbn [fst snd] in H. destruct (endswith (lit ".xml") name) eqn:En.
      * left. apply endswith_spec in En as (st & ->). rewrite stem4_xml in H. destruct H as [->|[]]. reflexivity.
      * right. split; [reflexivity|]. destruct sub as [names|]; [|destruct H]. exists names. split; [reflexivity|].
        apply in_map_iff in H as (t & <- & Ht). apply filter_In in Ht as [Ht Ee]. apply endswith_spec in Ee as (st & ->). now rewrite stem4_xml.
    + intros (d & name & sub & Hd & He & H). exists d. split; [exact Hd|]. apply in_flat_map. exists (name, sub). split; [exact He|].
      unfold of_entry. cbn [fst snd]. destruct H as [->|(-> & names & -> & H)].
      * rewrite (proj2 (endswith_spec _ _)) by (eexists; reflexivity). rewrite stem4_xml. now left.
      * apply in_map_iff. exists (x ++ lit ".xml"). split; [apply stem4_xml|]. apply filter_In. split; [exact H|].
        apply endswith_spec. eexists. reflexivity.
Qed.
Print Assumptions C98_locales.
Example C98_locales_case :
  locales [] (Some [[(lit "fr.xml", None); (lit "a", Some [lit "aa.xml"; lit "aa_ET.xml"; lit "notes.txt"])]; [(lit "aa.xml", None)]]) =
  Ok [lit "aa"; lit "aa_ET"; lit "fr"].
Proof. reflexivity. Qed.
(** locales that are given are taken as they are; without any and without directories the script ends in an error *)
Theorem C98_given : (forall l dirs, l <> [] -> locales l dirs = Ok l) /\ locales [] None = Raise TypeError.
Proof. split; [intros [|x l] d H; [congruence|reflexivity]|reflexivity]. Qed.

(** A date with an empty part, or a part with a letter, ends the script with ValueError, whatever the day. *)
Lemma ints_bad l : (exists p, In p l /\ int_ p = Raise ValueError) -> ints l = Raise ValueError.
Proof.
  induction l as [|x l IH]; intros (p & Hin & Hp); [destruct Hin|]. cbn [ints].
  destruct Hin as [->|Hin]; [now rewrite Hp|]. rewrite IH by eauto.
  unfold int_. destruct x; [reflexivity|]. destruct (forallb _ _); reflexivity.
Qed.
Theorem C98_no_date_refuted : forall n parts p,
  Forall (fun q => ~ In 45%N q) parts -> In p parts ->
  (p = [] \/ exists c, In c p /\ (65 <= c <= 90 \/ 97 <= c <= 122)%N) ->
  compare_now n (join (lit "-") parts) = Raise ValueError.
Proof.
  intros n parts p Hs Hin Hp. unfold compare_now. change (lit "-") with [45%N].
  rewrite split_join; [|intros ->; destruct Hin|exact Hs]. rewrite ints_bad; [reflexivity|].
  exists p. split; [exact Hin|]. unfold int_. destruct Hp as [->|(c & Hc & Hl)]; [reflexivity|].
  destruct p as [|x p]; [reflexivity|]. destruct (forallb is_digit (x :: p)) eqn:E; [|reflexivity]. exfalso.
  rewrite forallb_forall in E. apply E in Hc. unfold is_digit in Hc. apply andb_true_iff in Hc as [_ Hc].
  apply N.leb_le in Hc. lia.
Qed.
Example C98_no_date_case : compare_now (Date 2024 5 1) (lit "2024-05-") = Raise ValueError /\
  compare_now (Date 2024 5 1) (lit "2024-May-01") = Raise ValueError.
Proof. split; reflexivity. Qed.
