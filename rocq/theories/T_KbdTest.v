(** C88: testing a keyboard with a file of keystrokes. *)
From Coq Require Import String Ascii.
From Verif Require Import Py PyFacts M_UnicodeSets M_Flatten M_Keyboard T_Keyboard M_KbdTest.
Local Open Scope list_scope.
Local Open Scope nat_scope.

(** * Specification *)
Notation test := (pystr * list pystr * option pystr)%type.
Section Spec.
  Variable ws : N -> bool.
  Definition tags_of (e : event) : list pystr := match ev_shift e with Some l => l | None => [] end.
  Definition known_mods (e : event) (ms : list pystr) : Prop :=
    Forall2 (fun t m => In (t, m) modifiermap) (tags_of e) ms.
  (** the name of the key, with white space around it *)
  Definition known_key (e : event) (key : pystr) : Prop :=
    exists a name b, ev_vkey e = Some (Some (a ++ name ++ b)) /\ Forall (fun c => ws c = true) a /\ Forall (fun c => ws c = true) b /\
      In (name, key) keymap.
  (** an event is a test, or nothing *)
  Inductive reads (e : event) : option test -> Prop :=
  | no_key : ev_key e = false -> reads e None
  | no_vkey ms : ev_key e = true -> known_mods e ms -> ev_vkey e = None -> reads e None
  | no_text ms key : ev_key e = true -> known_mods e ms -> known_key e key -> ev_text e = None -> reads e None
  | a_test ms key t : ev_key e = true -> known_mods e ms -> known_key e key -> ev_text e = Some t -> reads e (Some (key, ms, t)).
End Spec.
Definition strokes (os : list (option test)) : list (pystr * list pystr) :=
  flat_map (fun o => match o with Some (k, ms, _) => [(k, ms)] | None => [] end) os.
(** the tests that fail, numbered from [i]: those that do not expect the texts of all keys so far *)
Fixpoint report (i : nat) (typed : pystr) (os : list (option test)) (txts : list pystr) : list failure :=
  match os with
  | [] => []
  | None :: os' => report (S i) typed os' txts
  | Some (_, _, t) :: os' =>
      match txts with
      | [] => []
      | x :: txts' =>
          (if match t with Some s => if list_eq_dec N.eq_dec s (typed ++ x) then true else false | None => false end
           then [] else [(i, typed ++ x, t)])
          ++ report (S i) (typed ++ x) os' txts'
      end
  end.
(** digits, capital letters and the underscore are not white space *)
Definition no_blank (ws : N -> bool) : Prop :=
  forall c, (48 <= c <= 57)%N \/ (65 <= c <= 90)%N \/ c = 95%N -> ws c = false.

(** * Proof *)
Lemma sub_dec {X} (l : list X) (p : X -> bool) : forallb p l = true -> forall x, In x l -> p x = true.
Proof. intro H. now apply forallb_forall. Qed.
Lemma keymap_NoDup : NoDup (dkeys keymap).
Proof.
  assert (forall l, (fix f (l : list pystr) := match l with [] => true | x :: l' => negb (existsb (streq x) l') && f l' end)%bool l = true -> NoDup l) as D.
  { induction l as [|x l IH]; intro H; [constructor|]. apply andb_true_iff in H as [A B]. constructor; [|now apply IH].
    intro Hin. apply negb_true_iff in A. assert (existsb (streq x) l = true) by (apply existsb_exists; exists x; split; [assumption|apply streq_refl]). congruence. }
  apply D. vm_compute. reflexivity.
Qed.
Lemma modmap_NoDup : NoDup (dkeys modifiermap).
Proof.
  assert (forall l, (fix f (l : list pystr) := match l with [] => true | x :: l' => negb (existsb (streq x) l') && f l' end)%bool l = true -> NoDup l) as D.
  { induction l as [|x l IH]; intro H; [constructor|]. apply andb_true_iff in H as [A B]. constructor; [|now apply IH].
    intro Hin. apply negb_true_iff in A. assert (existsb (streq x) l = true) by (apply existsb_exists; exists x; split; [assumption|apply streq_refl]). congruence. }
  apply D. vm_compute. reflexivity.
Qed.
Lemma keymap_get n k : dget streq keymap n = Some k <-> In (n, k) keymap.
Proof. split; [apply (dget_In _ streq_spec)|intro H; now apply (dget_NoDup_In _ streq_spec); [apply keymap_NoDup|]]. Qed.
Lemma modmap_get n k : dget streq modifiermap n = Some k <-> In (n, k) modifiermap.
Proof. split; [apply (dget_In _ streq_spec)|intro H; now apply (dget_NoDup_In _ streq_spec); [apply modmap_NoDup|]]. Qed.
Lemma key_chars n k : In (n, k) keymap ->
  k <> bksp /\ n <> [] /\ forall c, In c n -> (48 <= c <= 57)%N \/ (65 <= c <= 90)%N \/ c = 95%N.
Proof.
  intro H. assert (forall x, In x keymap -> (negb (streq (snd x) bksp) && match fst x with [] => false | _ => true end &&
    forallb (fun c => (N.leb 48 c && N.leb c 57) || (N.leb 65 c && N.leb c 90) || N.eqb c 95) (fst x))%bool = true) as A.
  { apply sub_dec. vm_compute. reflexivity. }
  apply A in H. cbn [fst snd] in H. apply andb_true_iff in H as [H C]. apply andb_true_iff in H as [B E].
  split; [intros ->; rewrite streq_refl in B; discriminate|]. split; [intros ->; discriminate|].
  intros c Hc. rewrite forallb_forall in C. specialize (C c Hc).
  rewrite !orb_true_iff, !andb_true_iff, !N.leb_le, N.eqb_eq in C. tauto.
Qed.

Section Proof.
  Variable ws : N -> bool.
  Hypothesis Hws : no_blank ws.
  Notation white := (Forall (fun c => ws c = true)).
  Lemma lstrip_white a s : white a -> lstrip ws (a ++ s) = lstrip ws s.
  Proof. induction a as [|c a IH]; intro H; [reflexivity|]. inversion H; subst. cbn. rewrite H2. now apply IH. Qed.
  Lemma lstrip_id s : (forall c s', s = c :: s' -> ws c = false) -> lstrip ws s = s.
  Proof. destruct s as [|c s]; intro H; [reflexivity|]. cbn. now rewrite (H c s eq_refl). Qed.
  Lemma lstrip_split s : exists a, s = a ++ lstrip ws s /\ white a.
  Proof.
    induction s as [|c s (a & E & W)]; [exists []; split; [reflexivity|constructor]|]. cbn. destruct (ws c) eqn:C.
    - exists (c :: a). split; [cbn; now rewrite <- E|now constructor].
    - exists []. split; [reflexivity|constructor].
  Qed.
  Lemma strip_split s : exists a b, s = a ++ strip ws s ++ b /\ white a /\ white b.
  Proof.
    destruct (lstrip_split s) as (a & E & W). destruct (lstrip_split (rev (lstrip ws s))) as (b & E' & W').
    exists a, (rev b). split; [|split; [assumption|now apply Forall_rev]]. unfold strip.
    rewrite E at 1. f_equal. apply (f_equal (@rev N)) in E'. rewrite rev_involutive, rev_app_distr in E'. exact E'.
  Qed.
  Lemma strip_name a n b : white a -> white b -> n <> [] -> (forall c, In c n -> ws c = false) -> strip ws (a ++ n ++ b) = n.
  Proof.
    intros Wa Wb Nn H. unfold strip. rewrite lstrip_white by assumption.
    rewrite (lstrip_id (n ++ b)).
    - rewrite rev_app_distr, lstrip_white by now apply Forall_rev. rewrite lstrip_id; [apply rev_involutive|].
      intros c s' E. apply H. apply in_rev. rewrite E. now left.
    - intros c s' E. destruct n as [|d n]; [congruence|]. injection E as <- _. apply H. now left.
  Qed.
  Lemma key_read e key : known_key ws e key <-> exists v, ev_vkey e = Some (Some v) /\ dget streq keymap (strip ws v) = Some key.
  Proof.
    split.
    - intros (a & n & b & E & Wa & Wb & Hin). exists (a ++ n ++ b). split; [assumption|].
      destruct (key_chars _ _ Hin) as (_ & Nn & Hc). rewrite strip_name; auto. now apply keymap_get.
    - intros (v & E & G). destruct (strip_split v) as (a & b & Ev & Wa & Wb). exists a, (strip ws v), b.
      rewrite <- Ev. split; [assumption|]. split; [assumption|]. split; [assumption|]. now apply keymap_get.
  Qed.
  Lemma mods_read tags ms : modifiers tags = Ok ms <-> Forall2 (fun t m => In (t, m) modifiermap) tags ms.
  Proof.
    revert ms. induction tags as [|t tags IH]; intro ms; cbn [modifiers].
    - split; intro H; [injection H as <-; constructor|now inversion H].
    - destruct (dget streq modifiermap t) as [m|] eqn:E.
      + destruct (modifiers tags) as [l|] eqn:El; cbn [bind].
        * split; intro H.
          -- injection H as <-. constructor; [now apply modmap_get|now apply IH].
          -- inversion H as [|? m' ? l' Hm Hl]; subst. apply modmap_get in Hm. apply IH in Hl. congruence.
        * split; intro H; [discriminate|]. inversion H as [|? m' ? l' Hm Hl]; subst. apply IH in Hl. discriminate.
      + split; intro H; [discriminate|]. inversion H as [|? m' ? l' Hm Hl]; subst. apply modmap_get in Hm. congruence.
  Qed.
  Lemma mods_of e : match ev_shift e with Some tags => modifiers tags | None => Ok [] end = modifiers (tags_of e).
  Proof. unfold tags_of. now destruct (ev_shift e). Qed.
  (** ** C88: what an event is *)
  Lemma read_spec e o : read_event ws e = Ok o <-> reads ws e o.
  Proof.
    unfold read_event. rewrite mods_of. destruct (ev_key e) eqn:Ek; cbn [negb].
    2: { split; intro H; [injection H as <-; now constructor|]. inversion H; congruence. }
    destruct (modifiers (tags_of e)) as [ms|] eqn:Em; cbn [bind].
    2: { split; [discriminate|]. intro H. inversion H as [|? ? K|? ? ? K|? ? ? ? K]; subst; try congruence; apply mods_read in K; congruence. }
    assert (known_mods e ms) as Km by now apply mods_read.
    assert (forall ms', known_mods e ms' -> ms' = ms) as Um by (intros ms' H; apply mods_read in H; congruence).
    destruct (ev_vkey e) as [[v|]|] eqn:Ev.
    - destruct (dget streq keymap (strip ws v)) as [key|] eqn:Eg.
      + assert (known_key ws e key) as Kk by (apply key_read; eauto).
        assert (forall k', known_key ws e k' -> k' = key) as Uk by (intros k' H; apply key_read in H as (v' & E1 & E2); congruence).
        destruct (ev_text e) as [t|] eqn:Et; split; intro H.
        * injection H as <-. now constructor.
        * inversion H as [|? ? ? K|? ? ? ? ? K|ms' k' t' ? K1 K2 K3]; subst; try congruence. rewrite (Um _ K1), (Uk _ K2). congruence.
        * injection H as <-. eapply no_text; eassumption.
        * inversion H; subst; congruence.
      + split; [discriminate|]. intro H.
        inversion H as [|? ? ? K|? ? ? ? K|? ? ? ? ? K]; subst; try congruence; apply key_read in K as (v' & E1 & E2); congruence.
    - split; [discriminate|]. intro H.
      inversion H as [|? ? ? K|? ? ? ? K|? ? ? ? ? K]; subst; try congruence; apply key_read in K as (v' & E1 & E2); congruence.
    - split; intro H; [injection H as <-; eapply no_vkey; eassumption|].
      inversion H as [|? ? ? K|? ? ? ? K|? ? ? ? ? K]; subst; try congruence; apply key_read in K as (v' & E1 & E2); congruence.
  Qed.

  Variable lower : pystr -> pystr.
  Variable pyint : pystr -> option Z.
  Notation process_keys := (process_keys ws lower pyint).

  (** the report with what is seen after each keystroke *)
  Fixpoint report_seen (i : nat) (os : list (option test)) (ss : list pystr) : list failure :=
    match os with
    | [] => []
    | None :: os' => report_seen (S i) os' ss
    | Some (_, _, t) :: os' =>
        match ss with
        | [] => []
        | s :: ss' => (if optq s t then [] else [(i, s, t)]) ++ report_seen (S i) os' ss'
        end
    end.
  Lemma kbdtest_seen kb usvs evs os : Forall2 (reads ws) evs os ->
    (usvs = true -> forall k ms, ~ In (Some (k, ms, None)) os) ->
    forall i n hist cs rest, process_keys kb hist (strokes os) = Ok cs ->
    exists hist', kbdtest ws lower pyint kb usvs i n hist (evs ++ rest) =
      (let r := kbdtest ws lower pyint kb usvs (i + length evs) (n + length (report_seen (S i) os (map shown cs))) hist' rest in
       (report_seen (S i) os (map shown cs) ++ fst r, snd r)).
  Proof.
    intros H. induction H as [|e o evs os R H IH]; intros U i n hist cs rest P.
    - injection P as <-. exists hist. cbn. rewrite !Nat.add_0_r. apply surjective_pairing.
    - assert (usvs = true -> forall k ms, ~ In (Some (k, ms, None)) os) as U'.
      { intros E k ms Hin. apply (U E k ms). now right. }
      apply read_spec in R. cbn [app kbdtest]. rewrite R. destruct o as [[[key ms] t]|].
      + change (strokes (Some (key, ms, t) :: os)) with ((key, ms) :: strokes os) in P. cbn [M_Keyboard.process_keys] in P.
        destruct (process ws lower pyint kb hist key ms) as [[c hist1]|]; cbn [bind] in P; [|discriminate].
        destruct (process_keys kb hist1 (strokes os)) as [cs1|] eqn:P1; cbn [bind] in P; [|discriminate]. injection P as <-.
        cbn [map report_seen]. replace (i + 1) with (S i) by lia. destruct (optq (shown c) t) eqn:Eo.
        * destruct (IH U' (S i) n hist1 cs1 rest P1) as (hist' & E). exists hist'. rewrite E. cbn [app length].
          replace (S i + length evs) with (i + S (length evs)) by lia. reflexivity.
        * destruct (IH U' (S i) (S n) hist1 cs1 rest P1) as (hist' & E). exists hist'.
          destruct usvs eqn:Eu; [destruct t as [t|]; [|exfalso; apply (U eq_refl key ms); now left]|];
            cbv zeta; rewrite E; cbn [app length fst snd];
            replace (S i + length evs) with (i + S (length evs)) by lia;
            replace (S n + length (report_seen (S (S i)) os (map shown cs1))) with (n + S (length (report_seen (S (S i)) os (map shown cs1)))) by lia;
            reflexivity.
      + change (strokes (None :: os)) with (strokes os) in P. destruct (IH U' (S i) n hist cs rest P) as (hist' & E).
        exists hist'. rewrite E. cbn [report_seen length]. replace (S i + length evs) with (i + S (length evs)) by lia. reflexivity.
  Qed.

  Lemma strokes_not_bksp evs os : Forall2 (reads ws) evs os -> forall k m, In (k, m) (strokes os) -> streq k bksp = false.
  Proof.
    induction 1 as [|e o evs os R H IH]; intros k m Hin; [destruct Hin|]. unfold strokes in Hin. cbn [flat_map] in Hin.
    apply in_app_iff in Hin as [Hin|Hin]; [|now apply (IH k m)].
    inversion R as [| | |ms key t K1 K2 K3 K4]; subst; [destruct Hin|destruct Hin|destruct Hin|].
    destruct Hin as [E|[]]. injection E as <- <-. destruct K3 as (a & n & b & _ & _ & _ & Hk). apply key_chars in Hk as (Nb & _).
    destruct (streq_spec key bksp); [contradiction|reflexivity].
  Qed.
  Lemma report_eq os : forall i T V txts, (forall k m, In (k, m) (strokes os) -> streq k bksp = false) ->
    length txts = length (strokes os) ->
    report_seen i os (seen T V (combine (strokes os) txts)) = report i T os txts.
  Proof.
    induction os as [|[[[k m] t]|] os IH]; intros i T V txts Nb L; [reflexivity| |].
    - change (strokes (Some (k, m, t) :: os)) with ((k, m) :: strokes os) in *.
      destruct txts as [|x txts]; [discriminate|]. cbn [combine seen report_seen report].
      rewrite (Nb k m (or_introl eq_refl)). cbv zeta. f_equal.
      + destruct t as [t|]; cbn [optq]; [|reflexivity].
        destruct (streq_spec (T ++ x) t), (list_eq_dec N.eq_dec t (T ++ x)); congruence.
      + apply IH; [intros k' m' H; apply (Nb k' m'); now right|now injection L].
    - cbn [report_seen report]. change (strokes (None :: os)) with (strokes os) in *. now apply IH.
  Qed.
  Lemma mapM_length {A B} (f : A -> res B) l r : mapM f l = Ok r -> length r = length l.
  Proof.
    revert r. induction l as [|x l IH]; intros r H; cbn [mapM] in H; [injection H as <-; reflexivity|].
    destruct (f x); cbn [bind] in H; [|discriminate]. destruct (mapM f l) eqn:E; cbn [bind] in H; [|discriminate].
    injection H as <-. cbn. f_equal. now apply IH.
  Qed.

  (** ** C88: a test passes exactly if it expects the texts of all the keys tested so far; all
      the others are reported in order, and their number is the status, modulo 256. What comes
      before an event that cannot be read is reported too. *)
  Theorem C88_report : forall ud es kb usvs evs os txts,
    load ud ws lower es = Ok kb -> Forall2 (reads ws) evs os ->
    mapM (key_text ws lower es) (strokes os) = Ok txts ->
    (~ has_table es (lit "simple") \/ setting_of es (lit "fallback") <> Some (lit "omit")) ->
    (usvs = true -> forall k ms, ~ In (Some (k, ms, None)) os) ->
    kbdtest ws lower pyint kb usvs 0 0 [] evs = (report 1 [] os txts, Exit (length (report 1 [] os txts) mod 256)) /\
    forall bad rest, (forall o, ~ reads ws bad o) ->
      exists x, kbdtest ws lower pyint kb usvs 0 0 [] (evs ++ bad :: rest) = (report 1 [] os txts, Error x) /\
        (x = KeyError \/ x = AttributeError).
  Proof.
    intros ud es kb usvs evs os txts El R Hm Hs U.
    pose proof (strokes_not_bksp evs os R) as Nb.
    destruct (C42_text ud ws lower pyint es kb (strokes os) txts El Hm) as (cs & P & Sn); [|exact Hs|].
    { intros m Hin. apply Nb in Hin. rewrite streq_refl in Hin. discriminate. }
    assert (report_seen 1 os (map shown cs) = report 1 [] os txts) as Er.
    { rewrite Sn. apply report_eq; [exact Nb|]. now apply mapM_length in Hm. }
    split.
    - destruct (kbdtest_seen kb usvs evs os R U 0 0 [] cs [] P) as (h & E). rewrite app_nil_r in E. rewrite E, Er.
      cbn [kbdtest fst snd]. now rewrite app_nil_r.
    - intros bad rest Hb. destruct (kbdtest_seen kb usvs evs os R U 0 0 [] cs (bad :: rest) P) as (h & E). rewrite E, Er.
      cbn [kbdtest fst snd]. destruct (read_event ws bad) as [o|x] eqn:Eb; [apply read_spec in Eb; exfalso; eapply Hb; exact Eb|].
      cbn [fst snd]. rewrite app_nil_r. exists x. split; [reflexivity|].
      unfold read_event in Eb. rewrite mods_of in Eb. destruct (ev_key bad); cbn [negb] in Eb; [|discriminate].
      destruct (modifiers (tags_of bad)) as [ms|y] eqn:Em; cbn [bind] in Eb.
      + destruct (ev_vkey bad) as [[v|]|]; [|injection Eb as <-; now right|discriminate].
        destruct (dget streq keymap (strip ws v)); [destruct (ev_text bad); discriminate|injection Eb as <-; now left].
      + injection Eb as <-. left. clear -Em. revert y Em. induction (tags_of bad) as [|t l IH]; intros y Em; cbn [modifiers] in Em; [discriminate|].
        destruct (dget streq modifiermap t); [|now injection Em as <-].
        destruct (modifiers l); cbn [bind] in Em; [discriminate|]. injection Em as <-. now apply IH.
  Qed.

  (** ** C88: an event without an expected text is not typed at all *)
  Theorem C88_untyped_refuted : forall kb usvs i n hist e evs, ev_text e = None -> (exists o, reads ws e o) ->
    kbdtest ws lower pyint kb usvs i n hist (e :: evs) = kbdtest ws lower pyint kb usvs (S i) n hist evs.
  Proof.
    intros kb usvs i n hist e evs Et (o & R). assert (o = None) as -> by (inversion R; congruence).
    apply read_spec in R. cbn [kbdtest]. now rewrite R.
  Qed.

  (** ** C88: a run with 256 failures looks like success *)
  Theorem C88_status_refuted : forall ud es kb x,
    load ud ws lower es = Ok kb -> key_text ws lower es (lit "C01", []) = Ok x ->
    (~ has_table es (lit "simple") \/ setting_of es (lit "fallback") <> Some (lit "omit")) ->
    exists evs fs, kbdtest ws lower pyint kb false 0 0 [] evs = (fs, Exit 0) /\ length evs = 256 /\ length fs = 256.
  Proof.
    intros ud es kb x El Hx Hs.
    set (e := Event true None (Some (Some (lit "K_A"))) (Some None)).
    set (o := Some (lit "C01", [] : list pystr, None : option pystr)).
    assert (reads ws e o) as R.
    { constructor; [reflexivity|constructor| |reflexivity]. exists [], (lit "K_A"), []. split; [reflexivity|].
      split; [constructor|]. split; [constructor|]. apply keymap_get. vm_compute. reflexivity. }
    assert (forall n, Forall2 (reads ws) (repeat e n) (repeat o n)) as Rn by (induction n; constructor; assumption).
    assert (forall n, mapM (key_text ws lower es) (strokes (repeat o n)) = Ok (repeat x n)) as Mn.
    { induction n; [reflexivity|]. change (strokes (repeat o (S n))) with ((lit "C01", [] : list pystr) :: strokes (repeat o n)).
      cbn [mapM]. rewrite Hx. cbn [bind]. rewrite IHn. reflexivity. }
    destruct (C88_report ud es kb false (repeat e 256) (repeat o 256) (repeat x 256) El (Rn 256) (Mn 256) Hs) as [E _]; [discriminate|].
    assert (forall n i T, length (report i T (repeat o n) (repeat x n)) = n) as Ln.
    { induction n; intros i T; [reflexivity|]. cbn [repeat]. unfold o at 1. cbn [report app length]. f_equal. apply IHn. }
    rewrite Ln in E. exists (repeat e 256), (report 1 [] (repeat o 256) (repeat x 256)). split; [exact E|]. split; [apply repeat_length|apply Ln].
  Qed.

  (** ** C88: with the right alt or control key no key has a text, whatever the keyboard says:
      the names are written with a capital R and those of key maps are not *)
  Lemma in_join c s l : In c (join s l) -> In c s \/ exists x, In x l /\ In c x.
  Proof.
    induction l as [|x l IH]; intro H; [destruct H|]. cbn [join] in H. destruct l as [|y l].
    - right. exists x. split; [now left|assumption].
    - apply in_app_iff in H as [H|H]; [right; exists x; split; [now left|assumption]|].
      apply in_app_iff in H as [H|H]; [now left|]. destruct (IH H) as [H'|(z & Hz & Hc)]; [now left|right; exists z; split; [now right|assumption]].
  Qed.
  Lemma join_in c s l x : In x l -> In c x -> In c (join s l).
  Proof.
    induction l as [|y l IH]; intros H Hc; [destruct H|]. cbn [join]. destruct l as [|z l].
    - destruct H as [<-|[]]. assumption.
    - destruct H as [<-|H]; [apply in_app_iff; now left|]. apply in_app_iff. right. apply in_app_iff. right. now apply IH.
  Qed.
  Lemma split_in c d s x : In x (split_on d s) -> In c x -> In c s.
  Proof.
    revert x. induction s as [|e s IH]; intros x H Hc; cbn [split_on] in H; [destruct H as [<-|[]]; destruct Hc|].
    destruct (N.eqb e d); [destruct H as [<-|H]; [destruct Hc|right; now apply (IH x)]|].
    destruct (split_on d s) as [|y l]; [destruct H as [<-|[]]; destruct Hc as [<-|[]]; now left|].
    destruct H as [<-|H]; [destruct Hc as [<-|Hc]; [now left|right; apply (IH y); [now left|assumption]]|right; apply (IH x); [now right|assumption]].
  Qed.
  Theorem C88_right_refuted : forall es tags ms key,
    (forall s, ~ In 82%N (lower s)) -> In (lit "altgr") tags \/ In (lit "rctrl") tags ->
    Forall2 (fun t m => In (t, m) modifiermap) tags ms -> key_text ws lower es (key, ms) = Ok [].
  Proof.
    intros es tags ms key Hl Ht F.
    assert (exists m, In m ms /\ In 82%N m) as (m & Hm & Hc).
    { induction F as [|t m tags ms H F IH]; [destruct Ht as [[]|[]]|].
      assert (t = lit "altgr" \/ t = lit "rctrl" \/ (In (lit "altgr") tags \/ In (lit "rctrl") tags)) as [->|[->|Ht']].
      { cbn [In] in Ht. destruct Ht as [[E|Ht]|[E|Ht]]; auto. }
      - apply modmap_get in H. vm_compute in H. injection H as <-. eexists. split; [now left|]. vm_compute. tauto.
      - apply modmap_get in H. vm_compute in H. injection H as <-. eexists. split; [now left|]. vm_compute. tauto.
      - destruct (IH Ht') as (m' & H1 & H2). exists m'. split; [now right|assumption]. }
    assert (In 82%N (join [32%N] (isort strleb ms))) as J by (eapply join_in; [apply in_isort; exact Hm|exact Hc]).
    unfold key_text. cbn [snd fst].
    assert (last_such (map_for ws lower ms) (flat_map inlined es) = None) as ->; [|reflexivity].
    assert (forall e, map_for ws lower ms e = false) as Nf.
    { intros [[s|] ks|t f|f|f|a|es'|]; try reflexivity; cbn [map_for].
      - destruct (streq_spec (join [32%N] (isort strleb (all_mods ws lower s))) (join [32%N] (isort strleb ms))) as [E|]; [|reflexivity].
        exfalso. rewrite <- E in J. apply in_join in J as [[J|[]]|(x & Hx & Jx)]; [discriminate|]. apply (proj1 (in_isort _ _ _)) in Hx.
        unfold all_mods in Hx. apply in_flat_map in Hx as (w & _ & Hx). apply (Hl w). eapply split_in; eassumption.
      - destruct (streq_spec [] (join [32%N] (isort strleb ms))) as [E|]; [|reflexivity]. rewrite <- E in J. destruct J. }
    induction (flat_map inlined es) as [|e l IH]; [reflexivity|]. cbn [last_such]. now rewrite IH, Nf.
  Qed.
End Proof.

(** ** C88: the names of keys are those of the places on a keyboard, row by row *)
Definition row (names : list string) (r : ascii) (from : nat) : Prop :=
  forall i n, nth_error names i = Some n ->
    dget streq keymap (lit ("K_" ++ n)%string) =
    Some (lit (String r (String (Ascii.ascii_of_nat (48 + (from + i) / 10)) (String (Ascii.ascii_of_nat (48 + (from + i) mod 10)) EmptyString)))).
(** the modifiers: those of the left hand and the lock keep their names *)
Inductive modifier : pystr -> pystr -> Prop :=
| same_name t : In t [lit "shift"; lit "ctrl"; lit "alt"; lit "caps"] -> modifier t t
| right_ctrl : modifier (lit "rctrl") (lit "ctrlR")
| right_alt : modifier (lit "altgr") (lit "altR").
Theorem C88_modifiers t m : In (t, m) modifiermap <-> modifier t m.
Proof.
  split.
  - intros H. unfold modifiermap in H. repeat (destruct H as [H|H]; [injection H as <- <-; try (constructor; cbn [In]; tauto)|]). destruct H.
  - intros H. destruct H as [t H| |]; unfold modifiermap; cbn [In]; [|tauto|tauto].
    repeat (destruct H as [<-|H]; [tauto|]). destruct H.
Qed.
Theorem C88_layout :
  row ["BKQUOTE"; "1"; "2"; "3"; "4"; "5"; "6"; "7"; "8"; "9"; "0"; "HYPHEN"; "EQUAL"]%string "E"%char 0 /\
  row ["Q"; "W"; "E"; "R"; "T"; "Y"; "U"; "I"; "O"; "P"; "LBRKT"; "RBRKT"]%string "D"%char 1 /\
  row ["A"; "S"; "D"; "F"; "G"; "H"; "J"; "K"; "L"; "COLON"; "QUOTE"]%string "C"%char 1 /\
  row ["BKSLASH"; "Z"; "X"; "C"; "V"; "B"; "N"; "M"; "COMMA"; "PERIOD"; "SLASH"]%string "B"%char 0 /\
  row ["SPACE"]%string "A"%char 3 /\ length keymap = 48.
Proof.
  repeat match goal with |- _ /\ _ => split end; try reflexivity;
    intros i n H; repeat (destruct i as [|i]; [injection H as <-; vm_compute; reflexivity|]); destruct i; discriminate.
Qed.

(** * The hypotheses are met: two keystrokes, the second without an expected text, and a third
    that expects the second *)
Definition ex_space (c : N) : bool := N.eqb c 32.
Definition ex_events : list event :=
  [Event true None (Some (Some (lit " K_A "))) (Some (Some (lit "a"))); Event true None (Some (Some (lit "K_S"))) None;
   Event true (Some [lit "shift"; lit "ctrl"]) (Some (Some (lit "K_A"))) (Some (Some (lit "abcA")))].
Definition ex_tests : list (option test) :=
  [Some (lit "C01", [], Some (lit "a")); None; Some (lit "C01", [lit "shift"; lit "ctrl"], Some (lit "abcA"))].
Example C88_met :
  no_blank ex_space /\ Forall2 (reads ex_space) ex_events ex_tests /\
  mapM (key_text ex_space ascii_lower ex_board) (strokes ex_tests) = Ok [lit "a"; lit "A"] /\
  setting_of ex_board (lit "fallback") <> Some (lit "omit") /\ (forall s, ~ In 82%N (ascii_lower s)) /\
  report 1 [] ex_tests [lit "a"; lit "A"] = [(3, lit "aA", Some (lit "abcA"))] /\
  exists kb, load (fun _ => false) ex_space ascii_lower ex_board = Ok kb /\
    kbdtest ex_space ascii_lower (fun _ => None) kb true 0 0 [] ex_events = ([(3, lit "aA", Some (lit "abcA"))], Exit 1) /\
    kbdtest ex_space ascii_lower (fun _ => None) kb true 0 0 [] (ex_events ++ [Event true (Some [lit "super"]) None None]) =
      ([(3, lit "aA", Some (lit "abcA"))], Error KeyError).
Proof.
  assert (no_blank ex_space) as Hb.
  { intros c H. unfold ex_space. destruct (N.eqb_spec c 32); [subst; lia|reflexivity]. }
  split; [exact Hb|]. split.
  { repeat (constructor; [apply read_spec; [exact Hb|vm_compute; reflexivity]|]). constructor. }
  split; [vm_compute; reflexivity|]. split; [vm_compute; discriminate|]. split.
  { intros s H. unfold ascii_lower in H. apply in_map_iff in H as (c & E & _).
    destruct (N.leb_spec 65 c), (N.leb_spec c 90); cbn [andb] in E; lia. }
  split; [vm_compute; reflexivity|]. eexists. split; [reflexivity|]. split; vm_compute; reflexivity.
Qed.
