(** C64: a set of exemplars taken from an Exemplars object and given to another. *)
From Coq Require Import String.
From Verif Require Import Py PyFacts M_UnicodeSets M_Exemplars M_ExemplarIO P_UnicodeSets T_UnicodeSets T_Exemplars.
Local Open Scope list_scope.
Local Open Scope nat_scope.

(** * Specification *)

(** how often a script occurs in a text *)
Definition occurs (u : icu) (k : N) (text : pystr) : nat := length (filter (fun c => N.eqb (i_script u c) k) text).
(** [k] is a script of the text and none occurs more often *)
Definition commonest (u : icu) (text : pystr) (k : N) : Prop :=
  0 < occurs u k text /\ forall k', occurs u k' text <= occurs u k text.
(** the only commonest one *)
Definition dominant (u : icu) (text : pystr) (k : N) : Prop :=
  0 < occurs u k text /\ forall k', k' <> k -> occurs u k' text < occurs u k text.
(** Common or Inherited *)
Definition unspecific (u : icu) (c : N) : Prop := i_script u c = i_common u \/ i_script u c = i_inherited u.
(** the first character of the composed form *)
Definition first_char (u : icu) (x : pystr) (c : N) : Prop := exists s, i_nfc u x = c :: s.

(** The properties of characters and normal forms that matter. *)
Record icu_ok (u : icu) : Prop := {
  ok_nfd : forall x, i_nfd u (i_nfc u x) = i_nfd u x;
  ok_syntax : forall c, In c (lit "[]{}\&-|^$:") ->
    i_mark u c = false /\ i_ignorable u c = false /\ i_format u c = false /\ i_space u c = false /\ i_pua u c = false;
  ok_leb_total : forall a b, i_keyleb u a b = true \/ i_keyleb u b a = true;
  ok_leb_trans : forall a b c, i_keyleb u a b = true -> i_keyleb u b c = true -> i_keyleb u a c = true
}.

(** An exemplar that can be written: decomposed, not empty, and composed it has code points
    only, no space and no backslash. *)
Definition plain_exemplar (u : icu) (x : pystr) : Prop :=
  i_nfd u x = x /\ i_nfc u x <> [] /\ forall c, In c (i_nfc u x) -> (c < 1114112 /\ c <> 32 /\ c <> 92)%N.

(** * Proof *)
Lemma most_common1_spec d e : most_common1 d = Some e -> In e d /\ forall e', In e' d -> snd e' <= snd e.
Proof.
  revert e. induction d as [|a d IH]; intros e; cbn [most_common1]; [discriminate|].
  destruct (most_common1 d) as [e'|] eqn:E.
  - destruct (IH e' eq_refl) as [H1 H2]. destruct (Nat.ltb_spec (snd a) (snd e')); intro H0; injection H0 as <-.
    + split; [now right|]. intros x [<-|Hx]; [lia|auto].
    + split; [now left|]. intros x [<-|Hx]; [lia|]. specialize (H2 x Hx). lia.
  - intro H. injection H as <-. split; [now left|]. intros x [<-|Hx]; [lia|].
    destruct d as [|y d]; [destruct Hx|]. cbn [most_common1] in E. destruct (most_common1 d) as [z|]; [|discriminate].
    destruct (snd y <? snd z); discriminate.
Qed.
Lemma most_common1_none d : most_common1 d = None -> d = [].
Proof.
  destruct d as [|a d]; [reflexivity|]. cbn [most_common1]. destruct (most_common1 d) as [z|]; [|discriminate].
  destruct (snd a <? snd z); discriminate.
Qed.
Lemma count_scripts_NoDup code text : forall d, NoDup (dkeys d) -> NoDup (dkeys (count_scripts code text d)).
Proof.
  induction text as [|c text IH]; intros d H; [exact H|]. cbn [count_scripts fold_left].
  apply (IH (dset N.eqb d _ _)). now apply (dset_NoDup _ N.eqb_spec).
Qed.
Lemma count_scripts_keys code text : forall d k, In k (dkeys (count_scripts code text d)) ->
  In k (dkeys d) \/ In k (map code text).
Proof.
  induction text as [|c text IH]; intros d k H; [now left|]. cbn [count_scripts fold_left map In] in *.
  apply (IH (dset N.eqb d _ _)) in H as [H|H]; [|tauto].
  apply (in_dkeys_dset _ N.eqb_spec) in H as [H|H]; [right; left; congruence|tauto].
Qed.
Lemma occurs_pos u k text : In k (map (i_script u) text) <-> 0 < occurs u k text.
Proof.
  unfold occurs. rewrite in_map_iff. split.
  - intros (c & <- & Hc).
    assert (In c (filter (fun c0 => N.eqb (i_script u c0) (i_script u c)) text)) as H
      by (apply filter_In; split; [assumption|apply N.eqb_refl]).
    destruct (filter _ text); [destruct H|cbn; lia].
  - destruct (filter _ text) as [|c l] eqn:E; cbn; [lia|]. intros _.
    assert (In c (filter (fun c0 => N.eqb (i_script u c0) k) text)) as H by (rewrite E; now left).
    apply filter_In in H as [H1 H2]. apply N.eqb_eq in H2. eauto.
Qed.

(** The script of the texts processed so far. *)
Theorem C64_script : forall u text,
  match main_script (count_scripts (i_script u) text []) with
  | Some k => commonest u text k
  | None => text = []
  end.
Proof.
  intros u text. unfold main_script. set (d := count_scripts (i_script u) text []).
  assert (forall k n, In (k, n) d <-> dget N.eqb d k = Some n) as G.
  { intros k n. assert (NoDup (dkeys d)) as N by (apply count_scripts_NoDup; constructor).
    split; [now apply (dget_NoDup_In _ N.eqb_spec)|apply (dget_In _ N.eqb_spec)]. }
  assert (forall k, match dget N.eqb d k with Some n => n | None => 0 end = occurs u k text) as O.
  { intro k. unfold d. rewrite C39_scripts. reflexivity. }
  destruct (most_common1 d) as [[k n]|] eqn:E.
  - apply most_common1_spec in E as [E1 E2]. pose proof (proj1 (G k n) E1) as Ek.
    pose proof (O k) as Ok. rewrite Ek in Ok. split.
    + apply occurs_pos. assert (In k (dkeys d)) as Hk by (apply in_map_iff; exists (k, n); auto).
      apply count_scripts_keys in Hk as [[]|Hk]. exact Hk.
    + intro k'. rewrite <- Ok, <- O. destruct (dget N.eqb d k') as [n'|] eqn:E'; [|lia].
      apply G in E'. apply (E2 _ E').
  - apply most_common1_none in E. destruct text as [|c text]; [reflexivity|]. exfalso.
    specialize (O (i_script u c)). rewrite E in O. cbn [dget] in O.
    assert (0 < occurs u (i_script u c) (c :: text)) by (apply occurs_pos; now left). lia.
Qed.

Lemma read_fold u l : forall set n,
  fold_left (fun (st : list pystr * nat) x =>
               let '(set, maxlen) := st in (sadd set (i_nfd u x), Nat.max maxlen (length (i_nfd u x)))) l (set, n)
  = (fold_left sadd (map (i_nfd u) l) set, fold_left Nat.max (map (fun x => length (i_nfd u x)) l) n).
Proof. induction l as [|x l IH]; intros set n; cbn [fold_left map]; [reflexivity|]. apply IH. Qed.
Lemma fold_max l : forall n, n <= fold_left Nat.max l n /\ (forall x, In x l -> x <= fold_left Nat.max l n)
  /\ (fold_left Nat.max l n = n \/ In (fold_left Nat.max l n) l).
Proof.
  induction l as [|y l IH]; intro n; cbn [fold_left In]; [split; [lia|tauto]|].
  destruct (IH (Nat.max n y)) as (H1 & H2 & H3). split; [lia|]. split.
  - intros x [<-|Hx]; [lia|auto].
  - destruct H3 as [H3|H3]; [|auto]. rewrite H3. destruct (Nat.max_spec n y) as [[? ->]|[? ->]]; auto.
Qed.

(** Whether an exemplar is kept on writing. *)
Definition keeps (u : icu) (scripts : list (N * nat)) (x : pystr) : Prop :=
  exists c, first_char u x c /\ (main_script scripts = Some (i_script u c) \/ unspecific u c).
Lemma specific_spec u c : specific u c = false <-> unspecific u c.
Proof.
  unfold specific, unspecific. rewrite negb_false_iff, orb_true_iff, !N.eqb_eq. tauto.
Qed.
Lemma main_only_spec u scripts : forall l, (forall x, In x l -> i_nfc u x <> []) ->
  exists l', main_only u scripts (map (i_nfc u) l) = Ok (map (i_nfc u) l') /\
    (forall x, In x l' <-> In x l /\ keeps u scripts x).
Proof.
  induction l as [|x l IH]; intro H; cbn [main_only map].
  - exists []. split; [reflexivity|]. cbn. tauto.
  - destruct IH as (l' & E & HI); [intros; apply H; now right|].
    destruct (i_nfc u x) as [|c s] eqn:Ex; [exfalso; apply (H x); [now left|assumption]|].
    rewrite E. cbn [bind].
    assert ((match main_script scripts with Some k => N.eqb (i_script u c) k | None => false end || negb (specific u c))%bool = true
            <-> keeps u scripts x) as K.
    { rewrite orb_true_iff, negb_true_iff, specific_spec. unfold keeps, first_char. split.
      - intros K. exists c. split; [eauto|]. destruct K as [K|K]; [|tauto]. left.
        destruct (main_script scripts) as [k|]; [|discriminate]. apply N.eqb_eq in K. congruence.
      - intros (c' & (s' & E') & K). assert (c' = c) by congruence. subst c'.
        destruct K as [K|K]; [|tauto]. left. rewrite K. apply N.eqb_refl. }
    destruct (_ || _)%bool.
    + exists (x :: l'). split; [cbn [map]; now rewrite Ex|]. intro y. cbn [In]. rewrite HI. intuition congruence.
    + exists l'. split; [reflexivity|]. intro y. rewrite HI. cbn [In]. split; [tauto|].
      intros [[<-|Hy] Ky]; [|tauto]. exfalso. apply K in Ky. discriminate.
Qed.

Lemma need_hex_ok u : icu_ok u -> forall c iso, need_hex u c iso = true -> ~ spec_syntax c.
Proof.
  intros O c iso H S. destruct (ok_syntax u O c S) as (H1 & H2 & H3 & H4 & H5).
  unfold need_hex in H. rewrite H1, H2, H3, H4, H5 in H. discriminate.
Qed.

(** ** What is written and read back *)
(** The text written for a set of exemplars is read back as the exemplars of the main script of
    the text processed so far and those that belong to no script, in any object. *)
Theorem C64_written : forall u ud text exs sort, icu_ok u -> Forall (plain_exemplar u) exs ->
  exists s, ldml_write u (count_scripts (i_script u) text []) exs sort = Ok s /\
    forall maxlen, exists set maxlen', ldml_read u ud maxlen s = Ok (set, maxlen') /\ NoDup set /\
      forall x, In x set <-> In x exs /\ keeps u (count_scripts (i_script u) text []) x.
Proof.
  intros u ud text exs sort O P. set (d := count_scripts (i_script u) text []). unfold ldml_write.
  set (l := if sort then isort (i_keyleb u) exs else exs).
  assert (forall x, In x l <-> In x exs) as HL by (intro x; unfold l; destruct sort; [apply in_isort|tauto]).
  rewrite Forall_forall in P.
  destruct (main_only_spec u d l) as (l' & E & HI); [intros x Hx; apply HL in Hx; apply (P x Hx)|].
  rewrite E. cbn [bind]. eexists. split; [reflexivity|]. intro maxlen.
  destruct (C01_exemplar_list_roundtrip_no_backslash ud (need_hex u) (map (i_nfc u) l')) as (r & Er & Nr & HR).
  - now apply need_hex_ok.
  - intros s Hs. apply in_map_iff in Hs as (x & <- & Hx). apply HI in Hx as [Hx _]. apply HL in Hx.
    destruct (P x Hx) as (_ & P2 & P3). auto.
  - unfold ldml_read. rewrite Er. cbn [bind]. rewrite read_fold. eexists _, _. split; [reflexivity|].
    split; [apply fold_sadd_NoDup; constructor|]. intro x. rewrite in_fold_sadd. cbn [In].
    transitivity (In x l').
    + split.
      * intros [[]|H]. apply in_map_iff in H as (y & <- & Hy). apply HR in Hy.
        apply in_map_iff in Hy as (z & <- & Hz). rewrite (ok_nfd u O).
        assert (In z exs) as He by (apply HL, HI, Hz). destruct (P z He) as (-> & _). exact Hz.
      * intro Hx. right. apply in_map_iff. exists (i_nfc u x). split.
        -- rewrite (ok_nfd u O). assert (In x exs) as He by (apply HL, HI, Hx). now destruct (P x He).
        -- apply HR. apply in_map. exact Hx.
    + rewrite HI, HL. tauto.
Qed.

(** So nothing is lost when every exemplar begins with a character of the main script or of none. *)
Theorem C64_round_trip : forall u ud text exs sort, icu_ok u -> Forall (plain_exemplar u) exs ->
  (forall x c, In x exs -> first_char u x c -> dominant u text (i_script u c) \/ unspecific u c) ->
  exists s, ldml_write u (count_scripts (i_script u) text []) exs sort = Ok s /\
    forall maxlen, exists set maxlen', ldml_read u ud maxlen s = Ok (set, maxlen') /\ same_set set exs.
Proof.
  intros u ud text exs sort O P D. destruct (C64_written u ud text exs sort O P) as (s & E & H).
  exists s. split; [exact E|]. intro maxlen. destruct (H maxlen) as (set & m & E' & N & I).
  exists set, m. split; [exact E'|]. split; [exact N|]. intro x. rewrite I. split; [tauto|]. intro Hx.
  split; [exact Hx|]. rewrite Forall_forall in P. destruct (P x Hx) as (_ & Nx & _).
  destruct (i_nfc u x) as [|c r] eqn:Ex; [contradiction|]. exists c.
  assert (first_char u x c) as F by (exists r; assumption). split; [exact F|].
  destruct (D x c Hx F) as [[D1 D2]|D0]; [left|right; exact D0].
  pose proof (C64_script u text) as S. destruct (main_script _) as [k|].
  - destruct S as [S1 S2]. f_equal. destruct (N.eq_dec k (i_script u c)) as [|Nk]; [assumption|].
    specialize (D2 k Nk). specialize (S2 (i_script u c)). lia.
  - subst text. cbn in D1. lia.
Qed.

(** With one script that occurs more often than any other, it decides. *)
Theorem C64_kept : forall u ud text k exs sort, icu_ok u -> Forall (plain_exemplar u) exs -> dominant u text k ->
  exists s, ldml_write u (count_scripts (i_script u) text []) exs sort = Ok s /\
    forall maxlen, exists set maxlen', ldml_read u ud maxlen s = Ok (set, maxlen') /\ NoDup set /\
      forall x, In x set <-> In x exs /\ exists c, first_char u x c /\ (i_script u c = k \/ unspecific u c).
Proof.
  intros u ud text k exs sort O P [D1 D2]. destruct (C64_written u ud text exs sort O P) as (s & E & H).
  exists s. split; [exact E|]. intro maxlen. destruct (H maxlen) as (set & m & E' & N & I).
  exists set, m. split; [exact E'|]. split; [exact N|]. intro x. rewrite I. unfold keeps.
  assert (main_script (count_scripts (i_script u) text []) = Some k) as M.
  { pose proof (C64_script u text) as S. destruct (main_script _) as [k'|].
    - destruct S as [S1 S2]. f_equal. destruct (N.eq_dec k' k) as [|Nk]; [assumption|].
      specialize (D2 k' Nk). specialize (S2 k). lia.
    - subst text. cbn in D1. lia. }
  rewrite M. split; intros (Hx & c & F & [K|K]); (split; [exact Hx|]); exists c; (split; [exact F|]); auto; left; congruence.
Qed.

(** The text of a sorted set does not depend on the order in which the set gives its members. *)
Theorem C64_order : forall u scripts a b, icu_ok u -> Permutation a b ->
  (forall x y, In x a -> In y a -> i_keyleb u x y = true -> i_keyleb u y x = true -> x = y) ->
  ldml_write u scripts a true = ldml_write u scripts b true.
Proof.
  intros u scripts a b O P A. unfold ldml_write.
  assert (isort (i_keyleb u) a = isort (i_keyleb u) b) as ->; [|reflexivity].
  apply (isort_perm_eq (i_keyleb u)); auto; [apply (ok_leb_total u O)|apply (ok_leb_trans u O)].
Qed.

(** The length of the longest exemplar given so far: it never shrinks and it is reached. *)
Theorem C64_longest : forall u ud maxlen s set maxlen', ldml_read u ud maxlen s = Ok (set, maxlen') ->
  maxlen <= maxlen' /\ (forall x, In x set -> length x <= maxlen') /\
  (maxlen' = maxlen \/ exists x, In x set /\ length x = maxlen').
Proof.
  intros u ud maxlen s set maxlen' H. unfold ldml_read in H. destruct (us2list ud s) as [l|]; [|discriminate].
  cbn [bind] in H. rewrite read_fold in H. injection H as <- <-.
  destruct (fold_max (map (fun x => length (i_nfd u x)) l) maxlen) as (H1 & H2 & H3). split; [exact H1|]. split.
  - intros x Hx. apply in_fold_sadd in Hx as [[]|Hx]. apply in_map_iff in Hx as (y & <- & Hy).
    apply H2. apply in_map_iff. eauto.
  - destruct H3 as [H3|H3]; [now left|right]. apply in_map_iff in H3 as (y & <- & Hy).
    exists (i_nfd u y). split; [|reflexivity]. apply in_fold_sadd. right. now apply in_map.
Qed.

(** * Findings and examples *)
Local Open Scope N_scope.
Definition ex_icu : icu := {|
  i_nfd := fun x => x; i_nfc := fun x => x;
  i_mark := fun c => (768 <=? c) && (c <? 880); i_ignorable := fun c => c =? 173;
  i_format := fun c => c =? 8205; i_space := fun c => c =? 32; i_pua := fun c => (57344 <=? c) && (c <? 63744);
  i_script := fun c => if (768 <=? c) && (c <? 880) then 1
                       else if (945 <=? c) && (c <? 970) then 14
                       else if (97 <=? c) && (c <? 123) then 25 else 0;
  i_common := 0; i_inherited := 1;
  i_keyleb := strleb |}%bool.
Local Close Scope N_scope.
Lemma ex_icu_ok : icu_ok ex_icu.
Proof.
  constructor.
  - reflexivity.
  - intros c H. cbn in H. repeat destruct H as [<-|H]; [.. | destruct H]; repeat split; reflexivity.
  - intros a b. apply strleb_total.
  - intros a b c. apply strleb_trans.
Qed.

Ltac ex_plain :=
  apply Forall_forall; let x := fresh in let H := fresh in intros x H; cbn in H;
  repeat (destruct H as [<-|H]; [split; [reflexivity|]; split; [discriminate|];
    let c := fresh in let K := fresh in intros c K; cbn in K; repeat (destruct K as [<-|K]; [lia|]); destruct K|]);
  destruct H.

(** "abγ" over a Latin text: the Greek letter is dropped, the rest is read back. *)
Example C64_ex_write :
  ldml_write ex_icu (count_scripts (i_script ex_icu) (lit "abba") []) [lit "b"; [947%N]; lit "-"; lit "ch"; lit "a"] true
  = Ok (lit "[\- a b {ch}]").
Proof. reflexivity. Qed.
Example C64_ex_read : ldml_read ex_icu (fun _ => false) 1 (lit "[\- a b {ch}]")
  = Ok ([lit "-"; lit "a"; lit "b"; lit "ch"], 2).
Proof. vm_compute. reflexivity. Qed.
Example C64_ex_hyps :
  Forall (plain_exemplar ex_icu) [lit "b"; lit "-"; lit "ch"; lit "a"] /\
  forall x c, In x [lit "b"; lit "-"; lit "ch"; lit "a"] -> first_char ex_icu x c ->
    dominant ex_icu (lit "abba-cd") (i_script ex_icu c) \/ unspecific ex_icu c.
Proof.
  split.
  - ex_plain.
  - intros x c Hx (s & E). cbn in E. subst x.
    assert (i_script ex_icu c = 25%N \/ unspecific ex_icu c) as [->|H]; [| |now right].
    + cbn in Hx. repeat (destruct Hx as [Hx|Hx]; [injection Hx as <- <-; unfold unspecific; cbn; auto|]). destruct Hx.
    + left. split; [cbn; lia|]. intros k Hk. unfold occurs. cbn [lit].
      change (length (filter (fun c0 => (i_script ex_icu c0 =? 25)%N) (lit "abba-cd"))) with 6.
      cut (forall n, map (i_script ex_icu) (lit "abba-cd") = n -> n = [25;25;25;25;0;25;25]%N); [|intros n <-; reflexivity].
      intro M. specialize (M _ eq_refl). revert M. generalize (lit "abba-cd"). intros t M.
      assert (forall (f : N -> bool) (g : N -> N) (l : list N), length (filter (fun c0 => f (g c0)) l) = length (filter f (map g l))) as FM.
      { intros f g l. induction l as [|y l IH]; [reflexivity|]. cbn. destruct (f (g y)); cbn; now rewrite IH. }
      rewrite (FM (fun z => N.eqb z k) (i_script ex_icu) t), M. cbn [filter].
      destruct (N.eqb_spec 25 k) as [<-|_]; [contradiction|]. destruct (N.eqb 0 k); cbn; lia.
Qed.

(** Nothing is kept of a script when no text has been processed: reading the exemplars of a
    document into a new object and taking them from it loses every letter. *)
Theorem C64_no_text_refuted : ~ (forall u ud s set n, icu_ok u -> ldml_read u ud 0 s = Ok (set, n) ->
  Forall (plain_exemplar u) set -> exists s', ldml_write u (count_scripts (i_script u) [] []) set true = Ok s' /\
    forall set' n', ldml_read u ud 0 s' = Ok (set', n') -> same_set set' set).
Proof.
  intro H. destruct (H ex_icu (fun _ => false) (lit "[a b {ch}]") [lit "a"; lit "b"; lit "ch"] 2 ex_icu_ok) as (s' & E & R).
  - vm_compute. reflexivity.
  - ex_plain.
  - vm_compute in E. injection E as <-. destruct (R [] 0) as [_ S]; [vm_compute; reflexivity|].
    apply (S (lit "a")). now left.
Qed.

(** For every object without text: only exemplars of no script are written. *)
Theorem C64_no_text : forall u exs s c, main_only u [] (map (i_nfc u) exs) = Ok s -> In c s ->
  exists a r, c = a :: r /\ unspecific u a.
Proof.
  intros u exs. induction exs as [|x exs IH]; intros s c H Hc; cbn [map main_only] in H.
  - injection H as <-. destruct Hc.
  - destruct (i_nfc u x) as [|a r]; [discriminate|]. destruct (main_only u [] (map (i_nfc u) exs)) as [l|]; [|discriminate].
    cbn [bind main_script most_common1 orb] in H. destruct (specific u a) eqn:E; cbn [negb] in H; injection H as <-.
    + eauto.
    + destruct Hc as [<-|Hc]; [|eauto]. apply specific_spec in E. eauto.
Qed.

(** The same happens when spaces, digits and punctuation outnumber the letters: they are
    counted too, so that the script of the text is Common. *)
Theorem C64_common_refuted : ~ (forall u text x c, icu_ok u -> In c text -> ~ unspecific u c ->
  (forall c', In c' text -> unspecific u c' \/ i_script u c' = i_script u c) ->
  x = [c] -> plain_exemplar u x -> ldml_write u (count_scripts (i_script u) text []) [x] true <> Ok (lit "[]")).
Proof.
  intro H. apply (H ex_icu (lit "a, b. 1") (lit "a") 97%N ex_icu_ok); [cbn; tauto|..|reflexivity| |vm_compute; reflexivity].
  - intros [K|K]; discriminate K.
  - intros c' Hc. cbn in Hc. unfold unspecific. repeat destruct Hc as [<-|Hc]; cbn; auto. destruct Hc.
  - split; [reflexivity|]. split; [discriminate|]. intros c Hc. cbn in Hc. destruct Hc as [<-|[]]. lia.
Qed.

(** An empty exemplar cannot be written (reading gives none: "{}" is read as nothing). *)
Theorem C64_empty_raises : forall u scripts exs, In [] (map (i_nfc u) exs) ->
  main_only u scripts (map (i_nfc u) exs) = Raise IndexError.
Proof.
  intros u scripts exs. induction (map (i_nfc u) exs) as [|x l IH]; [intros []|]. intros [->|H]; [reflexivity|].
  cbn [main_only]. destruct x as [|a r]; [reflexivity|]. now rewrite (IH H).
Qed.
