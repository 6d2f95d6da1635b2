(** C69: reading the file of equivalent tags, and writing it (lib/sldr/langtags_full.py). *)
From Coq Require Import String.
From Verif Require Import Py PyFacts M_LangTags P_LangTags P_Collation P_Collation2 T_LangTags T_LangTags2
  M_Flatten M_AllTags.
Local Open Scope list_scope.
Local Open Scope nat_scope.

(** ** Specification *)
(** a word of a line stands for a form: "*" in front marks forms that have a file *)
Definition stands_for (w f : pystr) : Prop :=
  w = 42%N :: f \/ (w = f /\ forall r, f <> 42%N :: r).
(** [fs] are the forms on a line, in order: its words between white space, without the "=" *)
Definition spells (ws : N -> bool) (l : pystr) (fs : list pystr) : Prop :=
  Forall2 stands_for (filter (fun w => negb (streq w (lit "="))) (words ws l)) fs.

(** ** Reading *)
Section Reading.
Variable ws : N -> bool.
Variables lower upper title : pystr -> pystr.
Notation parse_tag := (LangTag lower upper title).

Lemma unstar_spec w f : stands_for w f <-> unstar w = f.
Proof.
  unfold stands_for, unstar, STAR. destruct w as [|c w].
  - split; [intros [?|[-> _]]; [discriminate|reflexivity] | intros <-; right; split; [reflexivity|discriminate]].
  - destruct (N.eqb_spec c 42) as [->|Hc].
    + split; [intros [E|[<- H]]; [now injection E | now destruct (H w)] | intros <-; now left].
    + split; [intros [E|[<- H]]; [now injection E|reflexivity] | intros <-; right; split; [reflexivity|congruence]].
Qed.

Lemma spells_iff l fs : spells ws l fs <-> line_tags ws l = fs.
Proof.
  unfold spells, line_tags, EQUALS. generalize (filter (fun w => negb (streq w (lit "="))) (words ws l)). intros ws'.
  revert fs. induction ws' as [|w ws' IH]; intros fs; cbn [map].
  - split; [intros H; inversion H; reflexivity | intros <-; constructor].
  - split.
    + intros H. inversion H as [|? f ? fs' H1 H2]; subst. apply unstar_spec in H1. apply IH in H2. congruence.
    + intros <-. constructor; [now apply unstar_spec | now apply IH].
Qed.

Lemma read_forms_spec : forall ts r i r', read_forms lower upper title r i ts = Ok r' ->
  (forall f, lookup r' f = if existsb (streq f) ts then Some i else lookup r f) /\
  (forall j, j <> i -> r_obj r' j = r_obj r j) /\
  exists lts, Forall2 (fun f lt => parse_tag f = Ok lt) ts lts /\
    r_obj r' i = fold_left join_form lts (r_obj r i).
Proof.
  induction ts as [|t ts IH]; intros r i r' H; cbn [read_forms] in H.
  - injection H as <-. split; [reflexivity|]. split; [reflexivity|]. exists []. split; [constructor|reflexivity].
  - destruct (parse_tag t) as [lt|e] eqn:E; cbn [bind] in H; [|discriminate].
    apply IH in H. destruct H as (H1 & H2 & lts & H3 & H4). split; [|split].
    + intros f. rewrite H1. cbn [existsb]. unfold lookup. cbn [r_map].
      rewrite (dget_dset streq streq_spec). destruct (streq f t); cbn [orb]; [now destruct (existsb (streq f) ts)|reflexivity].
    + intros j Hj. rewrite H2 by exact Hj. cbn [r_obj]. unfold upd. now destruct (Nat.eqb_spec j i).
    + exists (lt :: lts). split; [now constructor|]. rewrite H4. cbn [r_obj fold_left]. unfold upd.
      now rewrite Nat.eqb_refl.
Qed.

Lemma read_line_spec r i l r' : read_line ws lower upper title r i l = Ok r' ->
  (forall f, lookup r' f = if existsb (streq f) (line_tags ws l) then Some i else lookup r f) /\
  (forall j, j <> i -> r_obj r' j = r_obj r j) /\
  exists fs t lt lts, line_tags ws l = fs ++ [t] /\ parse_tag t = Ok lt /\
    Forall2 (fun f lt => parse_tag f = Ok lt) fs lts /\ r_obj r' i = fold_left join_form lts lt.
Proof.
  unfold read_line. destruct (rev (line_tags ws l)) as [|t ts] eqn:E; [discriminate|].
  assert (El : line_tags ws l = rev ts ++ [t]) by (rewrite <- (rev_involutive (line_tags ws l)), E; reflexivity).
  destruct (parse_tag t) as [lt|e] eqn:Et; cbn [bind]; [|discriminate].
  intros H. apply read_forms_spec in H. destruct H as (H1 & H2 & lts & H3 & H4). split; [|split].
  - intros f. rewrite H1, El, existsb_app. cbn [existsb]. unfold lookup. cbn [r_map].
    rewrite (dget_dset streq streq_spec). destruct (streq f t); cbn [orb]; rewrite ?orb_true_r, ?orb_false_r;
      destruct (existsb (streq f) (rev ts)); reflexivity.
  - intros j Hj. rewrite H2 by exact Hj. cbn [r_obj]. unfold upd. now destruct (Nat.eqb_spec j i).
  - exists (rev ts), t, lt, lts. split; [exact El|]. split; [exact Et|]. split; [exact H3|].
    rewrite H4. cbn [r_obj]. unfold upd. now rewrite Nat.eqb_refl.
Qed.

Lemma read_lines_spec : forall ls r i r', read_lines ws lower upper title r i ls = Ok r' ->
  (forall f k, lookup r' f = Some k <->
     (exists n l, k = i + n /\ nth_error ls n = Some l /\ In f (line_tags ws l) /\
        forall m l', n < m -> nth_error ls m = Some l' -> ~ In f (line_tags ws l')) \/
     (lookup r f = Some k /\ forall m l', nth_error ls m = Some l' -> ~ In f (line_tags ws l'))) /\
  (forall j, j < i -> r_obj r' j = r_obj r j) /\
  (forall n l, nth_error ls n = Some l ->
     exists fs t lt lts, line_tags ws l = fs ++ [t] /\ parse_tag t = Ok lt /\
       Forall2 (fun f lt => parse_tag f = Ok lt) fs lts /\ r_obj r' (i + n) = fold_left join_form lts lt).
Proof.
  induction ls as [|l ls IH]; intros r i r' H; cbn [read_lines] in H.
  - injection H as <-. split; [|split].
    + intros f k. split; [intros H; right; split; [exact H|]; intros [|m] l' D; discriminate D|].
      intros [(n & l & _ & D & _)|[H _]]; [destruct n; discriminate D | exact H].
    + reflexivity.
    + intros [|n] l D; discriminate D.
  - destruct (read_line ws lower upper title r i l) as [r1|e] eqn:E; cbn [bind] in H; [|discriminate].
    apply read_line_spec in E. destruct E as (E1 & E2 & E3). apply IH in H. destruct H as (H1 & H2 & H3).
    split; [|split].
    + intros f k. rewrite H1, E1. split.
      * intros [(n & l0 & -> & A & B & C)|[A B]].
        -- left. exists (S n), l0. split; [lia|]. split; [exact A|]. split; [exact B|].
           intros [|m] l' Hm D; [lia|]. apply (C m); [lia | exact D].
        -- destruct (existsb (streq f) (line_tags ws l)) eqn:Ex.
           ++ injection A as <-. left. exists 0, l. split; [lia|]. split; [reflexivity|].
              split; [now apply existsb_streq|]. intros [|m] l' Hm D; [lia|]. exact (B m l' D).
           ++ right. split; [exact A|]. intros [|m] l' D; [|exact (B m l' D)]. injection D as <-.
              intros Hi. apply existsb_streq in Hi. congruence.
      * intros [(n & l0 & -> & A & B & C)|[A B]].
        -- destruct n as [|n].
           ++ injection A as <-. right. apply existsb_streq in B. rewrite B. split; [f_equal; lia|].
              intros m l' D. apply (C (S m)); [lia | exact D].
           ++ left. exists n, l0. split; [lia|]. split; [exact A|]. split; [exact B|].
              intros m l' Hm D. apply (C (S m)); [lia | exact D].
        -- right. destruct (existsb (streq f) (line_tags ws l)) eqn:Ex.
           ++ apply existsb_streq in Ex. exfalso. exact (B 0 l eq_refl Ex).
           ++ split; [exact A|]. intros m l' D. exact (B (S m) l' D).
    + intros j Hj. rewrite H2, E2 by lia. reflexivity.
    + intros [|n] l0 D.
      * injection D as <-. destruct E3 as (fs & t & lt & lts & F1 & F2 & F3 & F4).
        exists fs, t, lt, lts. repeat split; try assumption. rewrite Nat.add_0_r, H2 by lia. exact F4.
      * destruct (H3 n l0 D) as (fs & t & lt & lts & F1 & F2 & F3 & F4).
        exists fs, t, lt, lts. repeat split; try assumption. rewrite <- F4. f_equal. lia.
Qed.

Lemma parse_hideregion x t : parse_tag x = Ok t -> t_hideregion t = false.
Proof.
  unfold LangTag, parse. set (t0 := newtag None None None None None).
  assert (H0 : t_hideregion t0 = false) by reflexivity.
  destruct (parse_lang lower t0 (bits_of x)) as [t1 b1] eqn:E1.
  assert (H1 : t_hideregion t1 = false).
  { unfold parse_lang in E1. destruct (bits_of x) as [|b r]; [congruence|].
    destruct (len23 b); [now injection E1 as <- <-|].
    destruct (streq b [120%N] && _)%bool; [|congruence].
    destruct (take_priv _ r). now injection E1 as <- <-. }
  clearbody t0. clear E1 H0 t0. cbn [bind].
  destruct (parse_script title t1 b1) as [[t2 b2]|] eqn:E2; cbn [bind]; [|discriminate].
  assert (H2 : t_hideregion t2 = false).
  { unfold parse_script in E2. destruct b1 as [|b r]; [congruence|].
    destruct (Nat.eqb (length b) 4); [injection E2 as <- <-; exact H1|].
    destruct (Nat.eqb (length b) 3 && _)%bool; [|congruence].
    destruct (t_lang t1); [|discriminate]. injection E2 as <- <-. exact H1. }
  destruct (parse_region upper t2 b2) as [t3 b3] eqn:E3.
  assert (H3 : t_hideregion t3 = false).
  { unfold parse_region in E3. destruct b2 as [|b r]; [congruence|].
    destruct (len23 b); injection E3 as <- <-; exact H2. }
  destruct (parse_late_script t3 b3) as [[t4 b4]|] eqn:E4; cbn [bind]; [|discriminate].
  assert (H4 : t_hideregion t4 = false).
  { unfold parse_late_script in E4. destruct b3 as [|b r]; [congruence|].
    destruct (Nat.eqb (length b) 4 && _)%bool; [|congruence].
    destruct (t_lang t3), (t_region t3); try discriminate.
    destruct r as [|b5 r]; [injection E4 as <- <-; exact H3|].
    destruct (len23 b5); injection E4 as <- <-; exact H3. }
  intros H. injection H as <-. unfold parse_rest.
  destruct (fold_left _ b4 _) as [[ns ex] vs]. destruct ex, vs; exact H4.
Qed.

Lemma join_form_keeps u lt : t_hideregion u = false -> t_hideregion lt = false ->
  t_lang (join_form u lt) = t_lang u /\
  (t_script u <> None -> t_script (join_form u lt) = t_script u) /\
  (t_region u <> None -> t_region (join_form u lt) = t_region u) /\
  (t_vars u <> None -> t_vars (join_form u lt) = t_vars u) /\
  (forall k, ext_of u k <> None -> ext_of (join_form u lt) k = ext_of u k) /\
  t_hideregion (join_form u lt) = false.
Proof.
  intros Hu Hl. unfold join_form. destruct (ostreq _ _); [|repeat split; auto].
  set (lt' := if (_ && _)%bool then _ else lt).
  assert (Hl' : t_hideregion lt' = false) by (unfold lt'; destruct (_ && _)%bool; exact Hl).
  clearbody lt'. destruct (merge_equivalent u lt') as [r [|]] eqn:E; cbn [fst].
  - destruct (C16_merge_true u lt' r E) as (A1 & A2 & A3 & A4 & A5 & _).
    destruct (C16_hide_flags u lt' r E) as (_ & B & _).
    split; [exact A1|]. split; [rewrite A2; destruct (t_script u); [reflexivity|congruence]|].
    split; [rewrite A3; destruct (t_region u); [reflexivity|congruence]|].
    split; [rewrite A4; destruct (t_vars u); [reflexivity|congruence]|].
    split; [intros k Hk; rewrite A5; destruct (ext_of u k); [reflexivity|congruence]|].
    apply not_true_iff_false. intros D. apply B in D. destruct D as [D|[D _]]; congruence.
  - destruct (C16_merge_false u lt' r E) as (A1 & A2 & A3 & A4 & A5 & _ & A7 & _).
    unfold ext_of. rewrite A5. repeat split; auto; try congruence.
Qed.

Lemma join_forms_keep : forall lts u, t_hideregion u = false ->
  Forall (fun lt => t_hideregion lt = false) lts ->
  let v := fold_left join_form lts u in
  t_lang v = t_lang u /\
  (t_script u <> None -> t_script v = t_script u) /\
  (t_region u <> None -> t_region v = t_region u) /\
  (t_vars u <> None -> t_vars v = t_vars u) /\
  (forall k, ext_of u k <> None -> ext_of v k = ext_of u k) /\
  t_hideregion v = false.
Proof.
  induction lts as [|lt lts IH]; intros u Hu HF v; [repeat split; auto|]. inversion HF as [|? ? F1 F2]; subst.
  destruct (join_form_keeps u lt Hu F1) as (A1 & A2 & A3 & A4 & A5 & A6).
  destruct (IH _ A6 F2) as (B1 & B2 & B3 & B4 & B5 & B6). unfold v. cbn [fold_left].
  split; [congruence|].
  split; [intros H; rewrite B2, A2; auto; rewrite A2; auto|].
  split; [intros H; rewrite B3, A3; auto; rewrite A3; auto|].
  split; [intros H; rewrite B4, A4; auto; rewrite A4; auto|].
  split; [intros k H; rewrite B5, A5; auto; rewrite A5; auto|]. exact B6.
Qed.

(** Looking up a form gives the object of the last line that has the form; nothing else is
    registered. So all forms of one line give one object, unless a later line takes them. *)
Theorem C69_lookup ls r : read_alltags ws lower upper title ls = Ok r ->
  forall f i, lookup r f = Some i <->
    (exists l fs, nth_error ls i = Some l /\ spells ws l fs /\ In f fs) /\
    (forall j l fs, i < j -> nth_error ls j = Some l -> spells ws l fs -> ~ In f fs).
Proof.
  intros H f i. destruct (read_lines_spec _ _ _ _ H) as (H1 & _ & _). rewrite H1. split.
  - intros [(n & l & -> & A & B & C)|[A _]]; [|discriminate A].
    split; [exists l, (line_tags ws l); split; [exact A|]; split; [now apply spells_iff | exact B]|].
    intros j l' fs Hj D S. apply spells_iff in S. subst fs. exact (C j l' Hj D).
  - intros [(l & fs & A & S & B) C]. left. apply spells_iff in S. subst fs.
    exists i, l. split; [reflexivity|]. split; [exact A|]. split; [exact B|].
    intros m l' Hm D. apply (C m l' _ Hm D). now apply spells_iff.
Qed.

(** The object of a line is the last form of the line: what that form says stays, whatever the
    other forms are. But no object that was read hides its region. *)
Theorem C69_object ls r : read_alltags ws lower upper title ls = Ok r ->
  forall i l, nth_error ls i = Some l ->
  exists fs t lt, spells ws l (fs ++ [t]) /\ parse_tag t = Ok lt /\
    t_lang (r_obj r i) = t_lang lt /\
    (t_script lt <> None -> t_script (r_obj r i) = t_script lt) /\
    (t_region lt <> None -> t_region (r_obj r i) = t_region lt) /\
    (t_vars lt <> None -> t_vars (r_obj r i) = t_vars lt) /\
    (forall k, ext_of lt k <> None -> ext_of (r_obj r i) k = ext_of lt k) /\
    t_hideregion (r_obj r i) = false.
Proof.
  intros H i l D. destruct (read_lines_spec _ _ _ _ H) as (_ & _ & H3).
  destruct (H3 i l D) as (fs & t & lt & lts & A & B & C & E). exists fs, t, lt.
  split; [now apply spells_iff|]. split; [exact B|]. cbn [Nat.add] in E. rewrite E.
  apply join_forms_keep; [exact (parse_hideregion _ _ B)|].
  clear -C. induction C; constructor; [eapply parse_hideregion; eassumption | assumption].
Qed.

(** A line without forms ends the reading with an error, whatever is on the other lines. *)
Theorem C69_blank_line_raises ls1 l ls2 r1 : read_alltags ws lower upper title ls1 = Ok r1 -> spells ws l [] ->
  read_alltags ws lower upper title (ls1 ++ l :: ls2) = Raise IndexError.
Proof.
  intros H S. apply spells_iff in S. revert H. unfold read_alltags. generalize empty_reg, 0.
  induction ls1 as [|l1 ls1 IH]; intros r i H; cbn [read_lines app] in *.
  - unfold read_line. rewrite S. reflexivity.
  - destruct (read_line ws lower upper title r i l1) as [r2|]; cbn [bind] in *; [|discriminate]. now apply IH.
Qed.
End Reading.

(** ** Writing and reading back *)
(** A form that can stand on a line: not empty, no white space, and not taken for the marker or
    the sign between forms. *)
Definition can_stand (ws : N -> bool) (f : pystr) : Prop :=
  f <> [] /\ (forall c, In c f -> ws c = false) /\ (forall r, f <> 42%N :: r) /\ f <> lit "=".

(** Two tags with the same subtags *)
Definition same_subtags (t u : tag) : Prop :=
  t_lang u = t_lang t /\ t_script u = t_script t /\ t_region u = t_region t /\
  t_vars u = t_vars t /\ t_exts u = t_exts t.

(** How many of the words of [fs] are there: the flags of a tag read from its forms *)
Definition bare (t : tag) : Prop :=
  (t_script t = None \/ t_hidescript t = true) /\ (t_region t = None \/ t_hideregion t = true) /\
  t_hideboth t = true.

Section Writing.
Variable ws : N -> bool.
Variables lower upper title : pystr -> pystr.
Notation parse_tag := (LangTag lower upper title).
Hypothesis ws_space : ws 32%N = true.
Hypothesis ws_equals : ws 61%N = false.
Hypothesis ws_star : ws 42%N = false.

Lemma words_from_solid : forall w acc s, (forall c, In c w -> ws c = false) ->
  words_from ws acc (w ++ s) = words_from ws (acc ++ w) s.
Proof.
  induction w as [|c w IH]; intros acc s H; cbn [app words_from].
  - now rewrite app_nil_r.
  - rewrite H by now left. rewrite IH by (intros x Hx; apply H; now right). now rewrite <- app_assoc.
Qed.
Lemma words_from_space acc s : acc <> [] -> words_from ws acc (32%N :: s) = acc :: words_from ws [] s.
Proof. intros H. cbn [words_from]. rewrite ws_space. destruct acc; [congruence|reflexivity]. Qed.

Lemma written_words : forall ws', Forall (fun w => w <> [] /\ forall c, In c w -> ws c = false) ws' ->
  filter (fun w => negb (streq w EQUALS)) (words ws (join (lit " = ") ws'))
  = filter (fun w => negb (streq w EQUALS)) ws'.
Proof.
  induction ws' as [|w ws' IH]; intros H; [reflexivity|]. inversion H as [|? ? [H1 H2] H3]; subst.
  destruct ws' as [|w2 ws'].
  - cbn [join]. rewrite <- (app_nil_r w) at 1. unfold words. rewrite words_from_solid by exact H2.
    cbn [app words_from]. destruct w; [congruence|reflexivity].
  - specialize (IH H3). cbn [join]. cbn [join] in IH.
    set (rest := match ws' with [] => w2 | _ => w2 ++ lit " = " ++ join (lit " = ") ws' end) in *.
    unfold words in *. rewrite words_from_solid by exact H2. cbn [app].
    change (lit " = " ++ rest) with (32%N :: (61%N :: 32%N :: rest)).
    rewrite words_from_space by exact H1.
    change (61%N :: 32%N :: rest) with ([61%N] ++ 32%N :: rest).
    rewrite words_from_solid by (intros c [<-|[]]; exact ws_equals). cbn [app].
    rewrite words_from_space by discriminate.
    assert (FC : forall p (a : pystr) x, filter p (a :: x) = (if p a then [a] else []) ++ filter p x)
      by (intros p a x; cbn [filter]; destruct (p a); reflexivity).
    rewrite (FC _ w (_ :: _)), (FC _ w (w2 :: ws')), FC, IH.
    assert (E : streq [61%N] EQUALS = true) by reflexivity. rewrite E. reflexivity.
Qed.

Lemma written_tags has fs : Forall (can_stand ws) fs -> line_tags ws (write_line has fs) = fs.
Proof.
  intros H. unfold line_tags, write_line. rewrite written_words.
  - induction H as [|f fs (A & B & C & D) H IH]; [reflexivity|]. cbn [map filter].
    assert (E : streq (if has f then STAR :: f else f) EQUALS = false).
    { destruct (has f).
      - destruct (streq_spec (STAR :: f) EQUALS) as [X|]; [discriminate X|reflexivity].
      - destruct (streq_spec f EQUALS) as [X|]; [destruct (D X)|reflexivity]. }
    rewrite E. cbn [negb map]. rewrite IH. f_equal. apply unstar_spec. unfold stands_for.
    destruct (has f); [now left|]. right. now split.
  - clear -H ws_star. induction H as [|f fs (A & B & C & D) H IH]; cbn [map]; constructor; [|exact IH].
    destruct (has f); [|now split]. split; [discriminate|]. intros c [<-|Hc]; [exact ws_star | now apply B].
Qed.

(** The line of a tag has its forms in order, with the marker before those that have a file. *)
Theorem C69_marks has fs : Forall (can_stand ws) fs ->
  filter (fun w => negb (streq w (lit "="))) (words ws (write_line has fs))
  = map (fun f => if has f then 42%N :: f else f) fs.
Proof.
  intros H. change (lit "=") with EQUALS. unfold write_line. rewrite written_words.
  - induction H as [|f fs (A & B & C & D) H IH]; [reflexivity|]. cbn [map filter].
    assert (E : streq (if has f then STAR :: f else f) EQUALS = false).
    { destruct (has f).
      - destruct (streq_spec (STAR :: f) EQUALS) as [X|]; [discriminate X|reflexivity].
      - destruct (streq_spec f EQUALS) as [X|]; [destruct (D X)|reflexivity]. }
    rewrite E. cbn [negb]. rewrite IH. reflexivity.
  - clear -H ws_star. induction H as [|f fs (A & B & C & D) H IH]; cbn [map]; constructor; [|exact IH].
    destruct (has f); [|now split]. split; [discriminate|]. intros c [<-|Hc]; [exact ws_star | now apply B].
Qed.

(** the parsed form, with [s] and [r] as shown *)
Definition form_tag (t : tag) (s r : option pystr) : tag :=
  mkTag (t_lang t) s r (t_vars t) (t_exts t) false false (isNone s && isNone r) [].

Lemma canon_id d : NoDup (map fst d) -> StronglySorted (fun a b => strleb a b = true) (map fst d) ->
  Forall (fun kv => StronglySorted (fun a b => strleb a b = true) (snd kv)) d -> canon_exts d = d.
Proof.
  intros ND Hk Hm. unfold canon_exts, dkeys. rewrite isort_id by exact Hk. rewrite map_map.
  rewrite <- (map_id d) at 2. apply map_ext_in. intros [k v] Hin. cbn [fst].
  unfold dgetl. rewrite (dget_NoDup_In streq streq_spec d k v ND Hin).
  rewrite Forall_forall in Hm. rewrite isort_id; [reflexivity | apply (Hm _ Hin)].
Qed.

Lemma sr_last t : allforms t <> [] ->
  exists l, sr_choices t = l ++ [(t_script t, t_region t)] /\
    (forall s r, In (s, r) l -> shown (t_hidescript t) (t_script t) s /\ shown (t_hideregion t) (t_region t) r /\
       (s <> t_script t \/ r <> t_region t) /\ (s <> None \/ r <> None \/ t_hideboth t = true)) /\
    (bare t <-> In (None, None) (l ++ [(t_script t, t_region t)])).
Proof.
  unfold allforms. intros H. assert (H' : sr_choices t <> []) by (intros E; apply H; now rewrite E). clear H.
  unfold bare, shown in *. unfold sr_choices, script_choices, region_choices in *.
  destruct (t_script t) as [sc|], (t_region t) as [rg|], (t_hidescript t), (t_hideregion t), (t_hideboth t);
    cbn [isNone orb negb app list_prod filter map fst snd] in *; try congruence;
    match goal with |- exists l, ?L = l ++ _ /\ _ => exists (removelast L) end; cbn [removelast app];
    (split; [reflexivity|]); (split; [intros s r; cbn [In]; intuition congruence | cbn [In]; intuition congruence]).
Qed.

Lemma merge_rest_exts x tg : t_exts (merge_rest x tg) =
  match t_exts tg with
  | None => t_exts x
  | Some e => Some (merge_exts (match t_exts x with Some d => d | None => [] end) e)
  end.
Proof.
  destruct x as [l1 s1 r1 v1 e1 hs1 hr1 hb1 d1], tg as [l2 s2 r2 v2 e2 hs2 hr2 hb2 d2].
  unfold merge_rest. cbn [t_region t_hideregion t_exts t_vars t_desc t_hideboth].
  destruct (ostreq r1 r2 && negb hr1)%bool, hb1, v1, v2, e2, d1, d2; reflexivity.
Qed.
Lemma merge_exts_self d : merge_exts d d = d.
Proof.
  unfold merge_exts. assert (G : forall e, (forall kv, In kv e -> In kv d) ->
    fold_left (fun d0 (kv : pystr * list pystr) => if dmem streq d0 (fst kv) then d0 else dset streq d0 (fst kv) (snd kv)) e d = d).
  { induction e as [|kv e IH]; intros Hin; [reflexivity|]. cbn [fold_left].
    assert (Hk : dmem streq d (fst kv) = true).
    { apply (dmem_spec streq streq_spec). apply in_map, Hin. now left. }
    rewrite Hk. apply IH. intros x0 Hx0. apply Hin. now right. }
  apply G. auto.
Qed.

Lemma join_form_tag t u s r :
  tidy t -> t_lang t <> None ->
  t_lang u = t_lang t -> t_script u = t_script t -> t_region u = t_region t -> t_vars u = t_vars t ->
  t_exts u = t_exts t -> t_hideregion u = false ->
  (s = t_script t \/ s = None) -> (r = t_region t \/ r = None) -> (s <> t_script t \/ r <> t_region t) ->
  let v := join_form u (form_tag t s r) in
  same_subtags t v /\ t_hidescript v = true /\ t_hideregion v = false /\
  (t_hideboth v = true <-> t_hideboth u = true \/ (s = None /\ r = None)).
Proof.
  intros HT HL U1 U2 U3 U4 U5 U6 Hs Hr Hne v.
  assert (Hj : v = fst (merge_equivalent u (form_tag t s r))).
  { unfold v, join_form. cbn [form_tag t_lang t_script t_region]. rewrite U1.
    assert (E : ostreq (t_lang t) (t_lang t) = true) by apply ostreq_refl. rewrite E.
    destruct s, r; cbn [isNone andb]; reflexivity. }
  assert (Hok : snd (merge_equivalent u (form_tag t s r)) = true).
  { apply C16_merge_iff. cbn [form_tag t_script t_region]. unfold compatible. rewrite U2, U3.
    split; [destruct Hs as [->| ->] | destruct Hr as [->| ->]]; auto. }
  destruct (merge_equivalent u (form_tag t s r)) as [w ok] eqn:E. cbn [fst snd] in *. subst ok w.
  destruct (C16_merge_true _ _ _ E) as (A1 & A2 & A3 & A4 & A5 & _).
  destruct (C16_hide_flags _ _ _ E) as (B1 & B2 & B3).
  cbn [form_tag t_script t_region t_vars t_hidescript t_hideregion t_hideboth] in *.
  rewrite U2 in *. rewrite U3 in *. rewrite U4 in *.
  assert (Ex : t_exts v = t_exts t).
  { pose proof (merge_cases u (form_tag t s r)) as M. rewrite E in M.
    destruct M as (_ & _ & s3 & -> & _ & _ & _ & _ & E5 & _).
    rewrite merge_rest_exts, E5, U5. cbn [form_tag t_exts]. destruct (t_exts t) as [d|]; [|reflexivity].
    f_equal. now apply merge_exts_self. }
  split; [|split; [|split]].
  - unfold same_subtags. split; [congruence|].
    split; [rewrite A2; destruct Hs as [->| ->]; destruct (t_script t); reflexivity|].
    split; [rewrite A3; destruct Hr as [->| ->]; destruct (t_region t); reflexivity|].
    split; [rewrite A4; destruct (t_vars t); reflexivity|]. exact Ex.
  - apply B1. destruct Hne as [Hne|Hne].
    + destruct Hs as [->| ->]; [congruence|]. right. right. left. split; [reflexivity | congruence].
    + destruct Hr as [->| ->]; [congruence|]. right. right. right. reflexivity.
  - apply not_true_iff_false. intros D. apply B2 in D. destruct D as [D|[D _]]; congruence.
  - rewrite B3. clear. destruct s, r; cbn [isNone andb];
      (split; [intros [H|H]; [now left | try discriminate H; right; now split] |
               intros [H|[H1 H2]]; [now left | try discriminate; now right]]).
Qed.

(** what reading back the forms of a tag gives *)
Definition read_back_as (t u : tag) : Prop :=
  same_subtags t u /\
  t_hideregion u = false /\
  (t_hidescript u = true <-> 2 <= length (allforms t)) /\
  (t_hideboth u = true <-> bare t).

Definition writable (t : tag) : Prop :=
  tidy t /\ well_formed lower upper title t /\ unambiguous t /\
  allforms t <> [] /\ Forall (can_stand ws) (allforms t).

Lemma parse_form t s r : well_formed lower upper title t -> unambiguous t ->
  shown (t_hidescript t) (t_script t) s -> shown (t_hideregion t) (t_region t) r ->
  parse_tag (join [HY] (olist (t_lang t) ++ olist s ++ olist r ++ olists (t_vars t) ++ ext_list t))
  = Ok (form_tag t s r).
Proof.
  intros WF HU Hs Hr. pose proof (wf_reduced _ _ _ _ _ _ WF HU Hs Hr) as WR.
  change (join [HY] _) with (tag_repr (set_region (set_script t s) r)).
  rewrite (parse_repr _ _ _ _ WR). unfold form_tag. cbn [t_lang t_script t_region t_vars t_exts set_region set_script].
  repeat f_equal. destruct (t_exts t) as [d|] eqn:E; [|reflexivity]. cbn [option_map]. f_equal.
  destruct HU as (_ & _ & HU). destruct (HU d E). destruct (wf_exts _ _ _ _ WF d E) as (_ & ND & _).
  now apply canon_id.
Qed.

Lemma fold_forms t : tidy t -> t_lang t <> None ->
  forall l u,
  (forall s r, In (s, r) l -> shown (t_hidescript t) (t_script t) s /\ shown (t_hideregion t) (t_region t) r /\
     (s <> t_script t \/ r <> t_region t)) ->
  same_subtags t u -> t_hideregion u = false ->
  let v := fold_left join_form (map (fun sr => form_tag t (fst sr) (snd sr)) l) u in
  same_subtags t v /\ t_hideregion v = false /\
  (t_hidescript v = true <-> t_hidescript u = true \/ l <> []) /\
  (t_hideboth v = true <-> t_hideboth u = true \/ In (None, None) l).
Proof.
  intros HT HL. induction l as [|[s r] l IH]; intros u Hl Hu Hh v.
  - unfold v. cbn [map fold_left In]. split; [exact Hu|]. split; [exact Hh|]. intuition congruence.
  - destruct (Hl s r (or_introl eq_refl)) as (S1 & S2 & S3). destruct Hu as (U1 & U2 & U3 & U4 & U5).
    destruct (join_form_tag t u s r HT HL U1 U2 U3 U4 U5 Hh) as (A1 & A2 & A3 & A4);
      [destruct S1 as [->|[_ ->]]; auto | destruct S2 as [->|[_ ->]]; auto | exact S3 |].
    destruct (IH _ (fun s0 r0 H0 => Hl s0 r0 (or_intror H0)) A1 A3) as (B1 & B2 & B3 & B4).
    unfold v. cbn [map fold_left fst snd]. split; [exact B1|]. split; [exact B2|]. split.
    + rewrite B3. split; [intros _; right; discriminate | intros _; now left].
    + rewrite B4, A4. cbn [In]. split.
      * intros [[?|[-> ->]]|?]; auto.
      * intros [?|[X|?]]; auto. injection X as -> ->. auto.
Qed.

Lemma forms_parse t : writable t ->
  exists l, allforms t = map (fun sr => tag_repr (set_region (set_script t (fst sr)) (snd sr))) (l ++ [(t_script t, t_region t)]) /\
  (forall s r, In (s, r) (l ++ [(t_script t, t_region t)]) ->
     parse_tag (tag_repr (set_region (set_script t s) r)) = Ok (form_tag t s r)) /\
  read_back_as t (fold_left join_form (map (fun sr => form_tag t (fst sr) (snd sr)) l)
                    (form_tag t (t_script t) (t_region t))).
Proof.
  intros (HT & WF & HU & Hne & _).
  destruct (sr_last t Hne) as (l & E & Hl & Hb). exists l.
  assert (HS : forall s r, In (s, r) (l ++ [(t_script t, t_region t)]) ->
    shown (t_hidescript t) (t_script t) s /\ shown (t_hideregion t) (t_region t) r).
  { intros s r Hin. apply in_app_or in Hin. destruct Hin as [Hin|[X|[]]].
    - destruct (Hl s r Hin) as (A & B & _). now split.
    - injection X as <- <-. split; now left. }
  assert (EF : allforms t = map (fun sr => tag_repr (set_region (set_script t (fst sr)) (snd sr))) (l ++ [(t_script t, t_region t)])).
  { unfold allforms. rewrite E. apply map_ext_in. intros [s r] Hin. cbn [fst snd]. destruct (HS s r Hin) as [A B].
    rewrite form_join; [reflexivity | exact HT | |].
    - intros x ->. destruct A as [A|[_ A]]; [|discriminate]. now apply (td_script t HT).
    - intros x ->. destruct B as [B|[_ B]]; [|discriminate]. now apply (td_region t HT). }
  split; [exact EF|]. split.
  - intros s r Hin. destruct (HS s r Hin) as [A B]. now apply (parse_form t s r).
  - assert (HL : t_lang t <> None) by (destruct (wf_lang _ _ _ _ WF) as (x & -> & _); discriminate).
    destruct (fold_forms t HT HL l (form_tag t (t_script t) (t_region t))) as (A1 & A2 & A3 & A4).
    + intros s r Hin. destruct (Hl s r Hin) as (B1 & B2 & B3 & _). auto.
    + repeat split.
    + reflexivity.
    + unfold read_back_as. split; [exact A1|]. split; [exact A2|]. split.
      * rewrite A3, EF, map_length, app_length. cbn [form_tag t_hidescript length].
        destruct l; cbn [length]; (split; [intros [H|H]; [discriminate|] | intros H; right; discriminate || (exfalso; lia)]);
          [now destruct H | lia].
      * rewrite A4, Hb, in_app_iff. cbn [form_tag t_hideboth In].
        destruct (t_script t), (t_region t); cbn [isNone andb]; intuition congruence.
Qed.

Lemma read_forms_ok : forall ts lts r i, Forall2 (fun f lt => parse_tag f = Ok lt) ts lts ->
  exists r', read_forms lower upper title r i ts = Ok r'.
Proof.
  induction ts as [|t ts IH]; intros lts r i H; [now exists r|]. inversion H as [|? lt ? lts' A B]; subst.
  cbn [read_forms]. rewrite A. cbn [bind]. eapply IH. exact B.
Qed.

Lemma Forall2_fun {A B} (R : A -> B -> Prop) : (forall a b c, R a b -> R a c -> b = c) ->
  forall l l1 l2, Forall2 R l l1 -> Forall2 R l l2 -> l1 = l2.
Proof.
  intros HR l l1 l2 H. revert l2. induction H; intros l2 H2; inversion H2; subst; [reflexivity|].
  f_equal; [eapply HR; eassumption | auto].
Qed.

Lemma read_lines_ok has : forall ts, Forall writable ts -> forall r i,
  exists r', read_lines ws lower upper title r i (map (fun t => write_line has (allforms t)) ts) = Ok r'.
Proof.
  induction 1 as [|t ts Ht H IH]; intros r i; [now exists r|]. cbn [map read_lines].
  destruct (forms_parse t Ht) as (l & E & P & _).
  assert (EL : line_tags ws (write_line has (allforms t)) = allforms t) by (apply written_tags, Ht).
  destruct (read_line ws lower upper title r i (write_line has (allforms t))) as [r1|e] eqn:ER.
  - cbn [bind]. apply IH.
  - exfalso. revert ER. unfold read_line. rewrite EL, E, map_app, rev_app_distr. cbn [map rev app fst snd].
    rewrite P by (apply in_or_app; right; now left). cbn [bind].
    rewrite rev_involutive. intros ER.
    match type of ER with read_forms _ _ _ ?r0 _ ?fs = _ =>
      destruct (read_forms_ok fs (map (fun sr => form_tag t (fst sr) (snd sr)) l) r0 i) as (r' & X) end; [|congruence].
    assert (P' : forall s r, In (s, r) l -> parse_tag (tag_repr (set_region (set_script t s) r)) = Ok (form_tag t s r))
      by (intros s' r' Hin; apply P, in_or_app; now left).
    clear -P'. induction l as [|[s r] l IHl]; cbn [map]; constructor; [apply P'; now left|].
    apply IHl. intros s' r' Hin. apply P'. now right.
Qed.

(** Tags that are written and read again: every form gives the object of the last tag, in the
    order of the file, that has this form, and that object has the subtags of the tag. *)
Theorem C69_round_trip has ts : Forall writable ts ->
  exists r, read_alltags ws lower upper title (map (fun t => write_line has (allforms t)) ts) = Ok r /\
  (forall f i, lookup r f = Some i <->
     (exists t, nth_error ts i = Some t /\ In f (allforms t)) /\
     (forall j t, i < j -> nth_error ts j = Some t -> ~ In f (allforms t))) /\
  (forall i t, nth_error ts i = Some t -> read_back_as t (r_obj r i)).
Proof.
  intros H. destruct (read_lines_ok has ts H empty_reg 0) as (r & E). exists r. split; [exact E|].
  assert (HW : forall i t, nth_error ts i = Some t -> writable t).
  { intros i t D. rewrite Forall_forall in H. apply H. eapply nth_error_In, D. }
  assert (HL : forall i l, nth_error (map (fun t => write_line has (allforms t)) ts) i = Some l ->
     exists t, nth_error ts i = Some t /\ line_tags ws l = allforms t).
  { intros i l D. rewrite nth_error_map in D. destruct (nth_error ts i) as [t|] eqn:D'; [|discriminate].
    injection D as <-. exists t. split; [reflexivity|]. apply written_tags, (HW i t D'). }
  assert (HL' : forall i t, nth_error ts i = Some t ->
     nth_error (map (fun t => write_line has (allforms t)) ts) i = Some (write_line has (allforms t))).
  { intros i t D. rewrite nth_error_map, D. reflexivity. }
  split.
  - intros f i. rewrite (C69_lookup ws lower upper title _ r E f i). split.
    + intros [(l & fs & D & S & Hin) C]. apply spells_iff in S. subst fs.
      destruct (HL i l D) as (t & Dt & El). rewrite El in Hin. split; [now exists t|].
      intros j t' Hj D' Hin'. apply (C j _ (allforms t') Hj (HL' j t' D')); [|exact Hin'].
      apply spells_iff. apply written_tags, (HW j t' D').
    + intros [(t & D & Hin) C]. split.
      * exists (write_line has (allforms t)), (allforms t). split; [now apply HL'|]. split; [|exact Hin].
        apply spells_iff, written_tags, (HW i t D).
      * intros j l fs Hj D' S Hin'. apply spells_iff in S. subst fs. destruct (HL j l D') as (t' & Dt & El).
        rewrite El in Hin'. exact (C j t' Hj Dt Hin').
  - intros i t D. destruct (read_lines_spec _ _ _ _ _ _ _ _ E) as (_ & _ & H3).
    destruct (H3 i _ (HL' i t D)) as (fs & x & lt & lts & A & B & C & G). cbn [Nat.add] in G. rewrite G.
    rewrite written_tags in A by apply (HW i t D).
    destruct (forms_parse t (HW i t D)) as (l & EF & P & RB).
    rewrite EF, map_app in A. cbn [map fst snd] in A. apply app_inj_tail in A. destruct A as [A <-].
    rewrite P in B by (apply in_or_app; right; now left). injection B as <-.
    replace lts with (map (fun sr => form_tag t (fst sr) (snd sr)) l); [exact RB|].
    apply (Forall2_fun (fun f lt => parse_tag f = Ok lt)) with (l := fs); [intros; congruence| |exact C].
    rewrite <- A.
    assert (P' : forall s r, In (s, r) l -> parse_tag (tag_repr (set_region (set_script t s) r)) = Ok (form_tag t s r))
      by (intros s' r' Hin; apply P, in_or_app; now left).
    clear -P'. induction l as [|[s r] l IHl]; cbn [map]; constructor; [apply P'; now left|].
    apply IHl. intros s' r' Hin. apply P'. now right.
Qed.
End Writing.

(** ** Saving and loading a registry *)
Section Saving.
Variable ws : N -> bool.
Variables lower upper title : pystr -> pystr.
Hypothesis ws_space : ws 32%N = true.
Hypothesis ws_equals : ws 61%N = false.
Hypothesis ws_star : ws 42%N = false.

Lemma iddedup_gen : forall l acc, NoDup acc ->
  let l' := fold_left (fun acc x => if existsb (Nat.eqb x) acc then acc else acc ++ [x]) l acc in
  NoDup l' /\ forall x, In x l' <-> In x acc \/ In x l.
Proof.
  induction l as [|y l IH]; intros acc ND l'; [split; [exact ND|]; intros x; cbn [In]; tauto|].
  unfold l'. cbn [fold_left].
  assert (Hy : existsb (Nat.eqb y) acc = true <-> In y acc).
  { rewrite existsb_exists. split; [intros (x & A & B); apply Nat.eqb_eq in B; now subst|].
    intros A. exists y. split; [exact A | apply Nat.eqb_refl]. }
  destruct (existsb (Nat.eqb y) acc) eqn:E.
  - destruct (IH acc ND) as [A B]. split; [exact A|]. intros x. rewrite B. cbn [In].
    split; [tauto|]. intros [?|[<-|?]]; auto. left. now apply Hy.
  - assert (ND' : NoDup (acc ++ [y])).
    { apply (Permutation_NoDup (l := y :: acc)); [apply Permutation_cons_append|]. constructor; [|exact ND].
      intros Hi. apply Hy in Hi. discriminate. }
    destruct (IH _ ND') as [A B]. split; [exact A|]. intros x. rewrite B, in_app_iff. cbn [In]. tauto.
Qed.

(** A registry in which every form of a registered object leads to that object is saved and
    loaded without loss of any form: all forms of an object lead to one object again, which has
    the subtags of the first; nothing else is registered. *)
Theorem C69_save_load has (order : list nat -> list nat) (r : registry) :
  (forall l, Permutation l (order l)) ->
  NoDup (dkeys (r_map r)) ->
  (forall k i, lookup r k = Some i -> writable ws lower upper title (r_obj r i) /\
     forall f, In f (allforms (r_obj r i)) -> lookup r f = Some i) ->
  exists r', read_alltags ws lower upper title (alltags_lines has order r) = Ok r' /\
  (forall k i, lookup r k = Some i -> exists i', read_back_as (r_obj r i) (r_obj r' i') /\
     forall f, In f (allforms (r_obj r i)) -> lookup r' f = Some i') /\
  (forall f i', lookup r' f = Some i' -> exists i, lookup r f = Some i /\ In f (allforms (r_obj r i)) /\
     read_back_as (r_obj r i) (r_obj r' i')).
Proof.
  intros HO ND HR.
  destruct (iddedup_gen (dvalues (r_map r)) [] (NoDup_nil _)) as [ND1 IN1].
  fold (iddedup (dvalues (r_map r))) in ND1, IN1.
  set (wl := fun i => write_line has (allforms (r_obj r i))).
  assert (PM : Permutation (map wl (iddedup (dvalues (r_map r)))) (alltags_lines has order r)).
  { unfold alltags_lines. eapply Permutation_trans; [|apply isort_perm]. unfold generate_alltags.
    eapply Permutation_trans; [|apply Permutation_map, Permutation_map, isort_perm].
    rewrite !map_map. unfold wl. apply Permutation_map, HO. }
  apply Permutation_sym, Permutation_map_inv in PM. destruct PM as (ids & EL & PI).
  assert (NDi : NoDup ids) by (eapply Permutation_NoDup; eassumption).
  assert (INi : forall i, In i ids <-> exists k, lookup r k = Some i).
  { intros i. transitivity (In i (dvalues (r_map r))).
    - split; intros Hi.
      + apply (Permutation_in _ (Permutation_sym PI)), IN1 in Hi. destruct Hi as [[]|Hi]. exact Hi.
      + apply (Permutation_in _ PI), IN1. now right.
    - unfold lookup, dvalues. rewrite in_map_iff. split.
      + intros ((k & i') & <- & Hin). exists k. now apply (dget_NoDup_In streq streq_spec).
      + intros (k & Hk). exists (k, i). split; [reflexivity|]. now apply (dget_In streq streq_spec). }
  destruct (C69_round_trip ws lower upper title ws_space ws_equals ws_star has (map (r_obj r) ids)) as (r' & E & L & O).
  { apply Forall_forall. intros t Ht. apply in_map_iff in Ht. destruct Ht as (i & <- & Hi).
    apply INi in Hi. destruct Hi as (k & Hk). apply (HR k i Hk). }
  exists r'. split; [rewrite EL; rewrite map_map in E; exact E|]. split.
  - intros k i Hk. assert (Hi : In i ids) by (apply INi; now exists k).
    apply In_nth_error in Hi. destruct Hi as (n & Hn). exists n.
    split; [apply O; rewrite nth_error_map, Hn; reflexivity|].
    intros f Hf. apply L. split; [exists (r_obj r i); split; [rewrite nth_error_map, Hn; reflexivity | exact Hf]|].
    intros j t Hj D Hin. rewrite nth_error_map in D. destruct (nth_error ids j) as [i2|] eqn:D2; [|discriminate].
    injection D as <-. assert (H2 : In i2 ids) by (eapply nth_error_In, D2). apply INi in H2. destruct H2 as (k2 & H2).
    pose proof (proj2 (HR k2 i2 H2) f Hin) as X. pose proof (proj2 (HR k i Hk) f Hf) as Y.
    assert (i2 = i) by congruence. subst i2.
    assert (n = j); [|lia]. apply (proj1 (NoDup_nth_error ids) NDi); [apply nth_error_Some; congruence | congruence].
  - intros f i' Hf. apply L in Hf. destruct Hf as [(t & D & Hin) _]. pose proof (O i' t D) as RB.
    rewrite nth_error_map in D. destruct (nth_error ids i') as [i|] eqn:D2; [|discriminate]. injection D as <-.
    assert (H2 : In i ids) by (eapply nth_error_In, D2). apply INi in H2. destruct H2 as (k & Hk).
    exists i. split; [now apply (HR k i Hk)|]. split; [exact Hin | exact RB].
Qed.
End Saving.

(** The lines are in the order of their text without the markers. *)
Theorem C69_sorted has order r :
  StronglySorted (fun a b => strleb (filter (fun c => negb (N.eqb c 42)) a) (filter (fun c => negb (N.eqb c 42)) b) = true)
    (alltags_lines has order r).
Proof.
  unfold alltags_lines. apply (isort_sorted (fun a b => strleb (drop_stars a) (drop_stars b))).
  - intros a b. apply strleb_total.
  - intros a b c. apply strleb_trans.
Qed.

(** ** What is lost *)
Definition space_only (c : N) : bool := N.eqb c 32.
Definition asis (s : pystr) : pystr := s.
Notation read_plain := (read_alltags space_only asis asis asis).

(** the first line of langtags.txt, without its markers *)
Definition afar : tag :=
  mkTag (Some (lit "aa")) (Some (lit "Latn")) (Some (lit "ET")) None None true true true [].
Definition afar_line : pystr := lit "*aa = *aa-ET = aa-Latn = aa-Latn-ET".
(** the fourth *)
Definition afar_ethi_line : pystr := lit "aa-Ethi = aa-Ethi-DJ = aa-Ethi-ER = aa-Ethi-ET".

(** The short form of a tag does not survive: a tag written as "aa" in short reads back as
    "aa-ET". *)
Theorem C69_short_form_refuted :
  exists t r, allforms t = [lit "aa"; lit "aa-ET"; lit "aa-Latn"; lit "aa-Latn-ET"] /\ tag_str t = lit "aa" /\
    read_plain [write_line (fun _ => false) (allforms t)] = Ok r /\
    lookup r (lit "aa") = Some 0 /\ tag_str (r_obj r 0) = lit "aa-ET".
Proof.
  exists afar. eexists. split; [vm_compute; reflexivity|]. split; [vm_compute; reflexivity|].
  split; [vm_compute; reflexivity|]. split; vm_compute; reflexivity.
Qed.

(** A registry that was read and is written again has lost forms. *)
Theorem C69_written_again_refuted :
  exists r, read_plain [afar_line] = Ok r /\ lookup r (lit "aa") = Some 0 /\
    alltags_lines (fun _ => false) (fun l => l) r = [lit "aa-ET = aa-Latn-ET"].
Proof.
  eexists. split; [vm_compute; reflexivity|]. split; vm_compute; reflexivity.
Qed.

(** The short form of a tag that was read can be the name of another tag. *)
Theorem C69_other_tag_refuted :
  exists r, read_plain [afar_line; afar_ethi_line] = Ok r /\
    lookup r (lit "aa-Ethi-ET") = Some 1 /\ tag_str (r_obj r 1) = lit "aa-ET" /\
    lookup r (tag_str (r_obj r 1)) = Some 0 /\
    t_script (r_obj r 0) = Some (lit "Latn") /\ t_script (r_obj r 1) = Some (lit "Ethi").
Proof.
  eexists. split; [vm_compute; reflexivity|]. repeat (split; [vm_compute; reflexivity|]). vm_compute; reflexivity.
Qed.

(** Or it is no name at all. *)
Theorem C69_no_tag_refuted :
  exists r, read_plain [lit "aae-Grek = aae-Grek-IT"] = Ok r /\
    tag_str (r_obj r 0) = lit "aae-IT" /\ lookup r (lit "aae-IT") = None.
Proof.
  eexists. split; [vm_compute; reflexivity|]. split; vm_compute; reflexivity.
Qed.

(** ** The hypotheses can be met *)
Ltac nodash := split; vm_compute; intuition discriminate.
Lemma afar_writable : writable space_only asis asis asis afar.
Proof.
  unfold writable. split; [|split; [|split; [|split]]].
  - constructor; cbn [afar t_lang t_script t_region t_vars t_exts]; intros x E; try discriminate E;
      injection E as <-; discriminate.
  - constructor; cbn [afar t_lang t_script t_region t_vars t_exts].
    + eexists. split; [reflexivity|]. split; [cbn; lia|]. split; [nodash | reflexivity].
    + intros s E. injection E as <-. split; [reflexivity|]. split; [nodash | reflexivity].
    + intros s E. injection E as <-. split; [cbn; lia|]. split; [nodash|]. split; [reflexivity|]. discriminate.
    + discriminate.
    + discriminate.
  - repeat split; try discriminate. intros x E. injection E as <-. discriminate.
  - discriminate.
  - vm_compute. repeat constructor; try discriminate; intros; repeat (match goal with H : _ \/ _ |- _ => destruct H end); subst;
      try contradiction; try discriminate; reflexivity.
Qed.

Example C69_nonvacuous :
  writable space_only asis asis asis afar /\
  exists r, read_plain [afar_line; afar_ethi_line] = Ok r /\
    map (lookup r) [lit "aa"; lit "aa-Latn"; lit "aa-Ethi"; lit "aa-Ethi-ER"; lit "aa-DJ"]
    = [Some 0; Some 0; Some 1; Some 1; None].
Proof.
  split; [exact afar_writable|]. eexists. split; [vm_compute; reflexivity|]. vm_compute; reflexivity.
Qed.

(** a registry with one object under its four forms meets the hypotheses of [C69_save_load] *)
Example C69_save_load_nonvacuous :
  let r := mkReg (map (fun f => (f, 0)) (allforms afar)) (fun _ => afar) in
  NoDup (dkeys (r_map r)) /\ lookup r (lit "aa") = Some 0 /\
  (forall k i, lookup r k = Some i -> writable space_only asis asis asis (r_obj r i) /\
     forall f, In f (allforms (r_obj r i)) -> lookup r f = Some i).
Proof.
  intros r. split; [|split].
  - vm_compute. repeat constructor; cbn [In]; intuition discriminate.
  - vm_compute; reflexivity.
  - intros k i H. assert (i = 0).
    { unfold lookup in H. apply (dget_In streq streq_spec) in H. unfold r in H. cbn [r_map] in H.
      apply in_map_iff in H. destruct H as (f & E & _). congruence. }
    subst i. split; [exact afar_writable|]. intros f Hf. revert Hf. vm_compute.
    intuition; subst; reflexivity.
Qed.
