(** C103: which files fixsldr repairs, the names it gives, and what is written by one process or by many. *)
From Coq Require Import String.
From Verif Require Import Py PyFacts M_LdmlBase M_Serialize M_Normalise M_Drafts M_Files M_AutoNames M_FixSldr M_FixRun
  T_Drafts T_Paths T_Ensure T_Files.
Local Open Scope list_scope.
Local Open Scope nat_scope.

(** * Which files *)
Lemma add_new_spec s l : (forall x, In x (add_new s l) <-> In x s \/ x = l) /\ (NoDup s -> NoDup (add_new s l)).
Proof.
  unfold add_new. destruct (existsb (streq l) s) eqn:E.
  - apply existsb_exists in E as (y & Hy & E). apply streq_true in E. subst y. split; [|auto].
    intro x. split; [auto|intros [H| ->]; assumption].
  - split.
    + intro x. rewrite in_app_iff. cbn. intuition.
    + intro ND. apply (Permutation_NoDup (Permutation_cons_append s l)). constructor; [|assumption]. intro X.
      assert (existsb (streq l) s = true) by (apply existsb_exists; exists l; split; [assumption|apply streq_refl]). congruence.
Qed.
(** Without --locale: the files of the directories whose names end with .xml, each once, sorted. *)
Theorem C103_files : forall indirs,
  StronglySorted (fun a b => strleb a b = true) (to_repair [] indirs) /\ NoDup (to_repair [] indirs) /\
  forall f, In f (to_repair [] indirs) <-> exists d l n, In (d, l) indirs /\ In (n ++ lit ".xml") l /\ f = path_join d (n ++ lit ".xml").
Proof.
  intro indirs. cbn [to_repair].
  assert (forall d l s, NoDup s ->
    let s' := fold_left (fun s l => if endswith (lit ".xml") l then add_new s (path_join d l) else s) l s in
    NoDup s' /\ forall f, In f s' <-> In f s \/ exists n, In (n ++ lit ".xml") l /\ f = path_join d (n ++ lit ".xml")) as F1.
  { intros d. induction l as [|x l IH]; intros s ND; cbn [fold_left].
    - split; [assumption|]. intro f. split; [auto|intros [H|(n & [] & _)]; assumption].
    - destruct (endswith (lit ".xml") x) eqn:E.
      + apply endswith_spec in E as [n ->]. destruct (add_new_spec s (path_join d (n ++ lit ".xml"))) as [A1 A2].
        destruct (IH _ (A2 ND)) as [H1 H2]. split; [assumption|]. intro f. rewrite H2, A1. split.
        * intros [[H| ->]|(k & H & ->)]; [auto| |]; right; [exists n|exists k]; split; auto; [now left|now right].
        * intros [H|(k & [H|H] & ->)]; [auto| |]; [left; right; now rewrite H|right; eauto].
      + destruct (IH s ND) as [H1 H2]. split; [assumption|]. intro f. rewrite H2. split.
        * intros [H|(k & H & ->)]; [auto|right; exists k; split; auto; now right].
        * intros [H|(k & [H|H] & ->)]; [auto| |right; eauto].
          exfalso. assert (endswith (lit ".xml") x = true) by (apply endswith_spec; eauto). congruence. }
  assert (forall ds s, NoDup s ->
    let s' := fold_left (fun s (d : pystr * list pystr) =>
      fold_left (fun s l => if endswith (lit ".xml") l then add_new s (path_join (fst d) l) else s) (snd d) s) ds s in
    NoDup s' /\ forall f, In f s' <-> In f s \/ exists d l n, In (d, l) ds /\ In (n ++ lit ".xml") l /\ f = path_join d (n ++ lit ".xml")) as F2.
  { induction ds as [|[d l] ds IH]; intros s ND; cbn [fold_left fst snd].
    - split; [assumption|]. intro f. split; [auto|intros [H|(? & ? & ? & [] & _)]; assumption].
    - destruct (F1 d l s ND) as [H1 H2]. destruct (IH _ H1) as [H3 H4]. split; [assumption|]. intro f. rewrite H4, H2. split.
      + intros [[H|(n & H & ->)]|(d' & l' & n & H & H' & ->)]; [auto| |]; right.
        * exists d, l, n. split; [now left|auto].
        * exists d', l', n. split; [now right|auto].
      + intros [H|(d' & l' & n & [H|H] & H' & ->)]; [auto| |].
        * injection H as <- <-. left. right. eauto.
        * right. exists d', l', n. auto. }
  destruct (F2 indirs [] (NoDup_nil _)) as [ND IN]. fold (all_files indirs) in ND, IN.
  split; [apply isort_sorted; [apply strleb_total|apply strleb_trans]|]. split.
  - apply (Permutation_NoDup (isort_perm strleb _) ND).
  - intro f. split.
    + intro H. apply (Permutation_in _ (Permutation_sym (isort_perm strleb _))) in H. apply IN in H as [[]|H]. exact H.
    + intro H. apply (Permutation_in _ (isort_perm strleb _)). apply IN. now right.
Qed.

(** * Names *)
(** the last entry for the type in the files en.xml taken together, else the first of the ISO file *)
Definition no_entry (i : pystr) (l : list (option pystr * option pystr)) : Prop := forall o, ~ In (Some i, o) l.
Definition given_name (o : option pystr) : pystr := match o with Some n => n | None => lit "None" end.
Definition en_entries (ens : list (option (list (option pystr * option pystr)))) : list (option pystr * option pystr) :=
  flat_map (fun en => match en with Some l => l | None => [] end) ens.
Lemma table_fold ens : forall t,
  fold_left (fun t en => match en with
                         | Some l => fold_left (fun t (e : option pystr * option pystr) => dset opteq t (fst e) (snd e)) l t
                         | None => t
                         end) ens t
  = fold_left (fun t e => dset opteq t (fst e) (snd e)) (en_entries ens) t.
Proof.
  induction ens as [|[l|] ens IH]; intro t; cbn [fold_left en_entries flat_map]; [reflexivity| |apply IH].
  rewrite IH. now rewrite fold_left_app.
Qed.
Lemma set_none i l : forall (t : list (option pystr * option pystr)), no_entry i l ->
  dget opteq (fold_left (fun t e => dset opteq t (fst e) (snd e)) l t) (Some i) = dget opteq t (Some i).
Proof.
  induction l as [|[k o] l IH]; intros t H; [reflexivity|]. cbn [fold_left fst snd]. rewrite IH.
  - apply (dget_dset_other _ opteq_spec). intros <-. apply (H o). now left.
  - intros o' H'. apply (H o'). now right.
Qed.
Lemma fill_spec i l : forall t : list (option pystr * option pystr),
  dget opteq (fold_left (fun t e => if dmem opteq t (fst e) then t else dset opteq t (fst e) (snd e)) l t) (Some i)
  = match dget opteq t (Some i) with Some o => Some o | None => dget opteq l (Some i) end.
Proof.
  induction l as [|[k o] l IH]; intro t; cbn [fold_left fst snd dget].
  - now destruct (dget opteq t (Some i)).
  - rewrite IH. unfold dmem. destruct (dget opteq t k) as [o'|] eqn:E.
    + destruct (dget opteq t (Some i)) eqn:E2; [reflexivity|]. destruct (opteq_spec (Some i) k) as [<-|N]; [congruence|reflexivity].
    + rewrite (dget_dset _ opteq_spec). destruct (opteq_spec (Some i) k) as [<-|N]; [now rewrite E|reflexivity].
Qed.
Theorem C103_names : forall ens iso i,
  let all := en_entries ens in
  (forall a o b, all = a ++ (Some i, o) :: b -> no_entry i b -> name_of (names_table ens iso) i = Some (given_name o)) /\
  (no_entry i all -> forall l a o b, iso = Some l -> l = a ++ (Some i, o) :: b -> no_entry i a ->
     name_of (names_table ens iso) i = Some (given_name o)) /\
  (no_entry i all -> (forall l, iso = Some l -> no_entry i l) -> name_of (names_table ens iso) i = None).
Proof.
  intros ens iso i all.
  set (t := fold_left (fun t e => dset opteq t (fst e) (snd e)) all []).
  assert (dget opteq (names_table ens iso) (Some i)
          = match dget opteq t (Some i) with Some o => Some o
            | None => match iso with Some l => dget opteq l (Some i) | None => None end end) as E.
  { unfold names_table. rewrite table_fold. fold all. fold t. destruct iso as [l|].
    - apply fill_spec.
    - now destruct (dget opteq t (Some i)). }
  assert (no_entry i all -> dget opteq t (Some i) = None) as N0 by (intro H; unfold t; now rewrite set_none).
  assert (forall l, no_entry i l -> dget opteq l (Some i) = None) as Nl.
  { intros l H. destruct (dget opteq l (Some i)) as [o|] eqn:D; [|reflexivity]. apply (dget_In _ opteq_spec) in D. now elim (H o). }
  split; [|split].
  - intros a o b Ea Hb. unfold name_of. rewrite E. unfold t. rewrite Ea, fold_left_app. cbn [fold_left fst snd].
    rewrite set_none by assumption. rewrite (dget_dset_same _ opteq_spec). now destruct o.
  - intros H l a o b -> -> Ha. unfold name_of. rewrite E, (N0 H).
    assert (dget opteq (a ++ (Some i, o) :: b) (Some i) = Some o) as ->.
    { clear -Ha. induction a as [|[k o'] a IH]; cbn [app dget].
      - destruct (opteq_spec (Some i) (Some i)); [reflexivity|congruence].
      - destruct (opteq_spec (Some i) k) as [<-|N]; [elim (Ha o'); now left|]. apply IH. intros o2 H2. apply (Ha o2). now right. }
    now destruct o.
  - intros H Hi. unfold name_of. rewrite E, (N0 H). destruct iso as [l|]; [|reflexivity]. now rewrite (Nl l (Hi l eq_refl)).
Qed.
(** a language with two alternates in en.xml, one that only the ISO file has *)
Example C103_names_case :
  let en := [(Some (lit "aa"), Some (lit "Afar")); (Some (lit "ab"), Some (lit "Abkhazian"))] in
  let en2 := [(Some (lit "aa"), Some (lit "Far"))] in
  let t := names_table [Some en; None; Some en2] (Some [(Some (lit "ab"), Some (lit "X")); (Some (lit "aab"), Some (lit "Alumu"))]) in
  name_of t (lit "aa") = Some (lit "Far") /\ name_of t (lit "ab") = Some (lit "Abkhazian") /\
  name_of t (lit "aab") = Some (lit "Alumu") /\ name_of t (lit "zz") = None.
Proof. repeat split; vm_compute; reflexivity. Qed.

(** * What is written *)
Lemma nodup_concat {X} (bs : list (list X)) : NoDup (concat bs) ->
  (forall i b, nth_error bs i = Some b -> NoDup b) /\
  (forall i j b c x, nth_error bs i = Some b -> nth_error bs j = Some c -> In x b -> In x c -> i = j).
Proof.
  induction bs as [|b0 bs IH]; intro ND; [split; intros [|i]; discriminate|]. cbn [concat] in ND.
  assert (NoDup b0 /\ NoDup (concat bs) /\ forall x, In x b0 -> ~ In x (concat bs)) as (N1 & N2 & D).
  { clear IH. induction b0 as [|y b0 IH]; cbn [app] in ND; [split; [constructor|split; [assumption|intros x []]]|].
    inversion ND as [|? ? Hy ND']; subst. destruct (IH ND') as (I1 & I2 & I3). rewrite in_app_iff in Hy. split; [|split; [assumption|]].
    - constructor; [tauto|assumption].
    - intros x [<-|Hx]; [tauto|now apply I3]. }
  destruct (IH N2) as [I1 I2].
  assert (forall j c x, nth_error bs j = Some c -> In x c -> In x (concat bs)) as IC.
  { intros j c x Hj Hx. apply in_concat. exists c. split; [now apply nth_error_In in Hj|assumption]. }
  split.
  - intros [|i] b H; cbn in H; [now injection H as <-|eauto].
  - intros [|i] [|j] b c x H1 H2 X1 X2; cbn in H1, H2; [reflexivity| | |f_equal; eauto].
    + injection H1 as <-. elim (D x X1). eauto.
    + injection H2 as <-. elim (D x X2). eauto.
Qed.

Section Run.
  Variable C : Type.
  Variable repair : option C -> res (C * option exn).
  Variable o : pystr.
  Variable s0 : pystr -> option C.                      (* the files before *)
  Variable ls : list pystr.                             (* the files to repair *)
  Notation one := (fix_one C repair (Some o)).
  Notation pool_of := (fix_pool C repair (Some o)).
  Definition out (l : pystr) : pystr := path_join o (last (split_on 47%N l) []).
  (** the file is repaired and written *)
  Definition fine (l : pystr) : Prop := exists c, repair (s0 l) = Ok (c, None).
  (** no two results go to the same place, and none to another file that is to be repaired (in place is allowed) *)
  Definition separate : Prop := NoDup ls /\
    (forall l l', In l ls -> In l' ls -> out l = out l' -> l = l') /\ (forall l l', In l ls -> In l' ls -> out l = l' -> l = l').
  (** [tried b l]: l is in the batch b, and everything before it is fine *)
  Definition tried (b : list pystr) (l : pystr) : Prop := exists pre post, b = pre ++ l :: post /\ Forall fine pre.
  (** the files after those in H were tried, and no others *)
  Definition after (H : pystr -> Prop) (s : pystr -> option C) : Prop :=
    (forall l, H l -> s (out l) = match repair (s0 l) with Ok (c, _) => Some c | Raise _ => s0 (out l) end) /\
    (forall q, (forall l, H l -> q <> out l) -> s q = s0 q).

  Definition binv (b : list pystr) (st : list pystr * list pystr) : Prop :=
    (b = fst st ++ snd st /\ Forall fine (fst st)) \/
    (snd st = [] /\ exists pre x post, b = pre ++ x :: post /\ fst st = pre ++ [x] /\ Forall fine pre /\ ~ fine x).
  Definition seen (bs : list (list pystr * list pystr)) (l : pystr) : Prop := exists i h r, nth_error bs i = Some (h, r) /\ In l h.
  Definition inv (bs : list (list pystr)) (P : (pystr -> option C) * list (list pystr * list pystr)) : Prop :=
    (forall i st, nth_error (snd P) i = Some st -> exists b, nth_error bs i = Some b /\ binv b st) /\
    (forall i b, nth_error bs i = Some b -> exists st, nth_error (snd P) i = Some st) /\
    after (seen (snd P)) (fst P).

  Lemma binv_sub b st x : binv b st -> In x (fst st) -> In x b.
  Proof.
    intros [[-> _]|(_ & pre & y & post & -> & -> & _)]; rewrite !in_app_iff; [auto|cbn; tauto].
  Qed.
  Lemma fine_dec l : fine l \/ ~ fine l.
  Proof.
    unfold fine. destruct (repair (s0 l)) as [[c [x|]]|x]; [right; intros [d E]; discriminate|left; eauto|right; intros [d E]; discriminate].
  Qed.

  Lemma inv_step bs P i : separate -> concat bs = ls -> inv bs P -> inv bs (pool_step C repair (Some o) P i).
  Proof.
    intros (ND & D1 & D2) Ec (I1 & I2 & I3). unfold pool_step, batch.
    destruct (nth_error (snd P) i) as [[h [|l r]]|] eqn:Ei; [exact (conj I1 (conj I2 I3))| |exact (conj I1 (conj I2 I3))].
    destruct (I1 i _ Ei) as (b & Hb & B). destruct B as [[Eb Fh]|[E _]]; [|discriminate]. cbn [fst snd] in Eb, Fh.
    assert (NoDup (concat bs)) as NDc by congruence. destruct (nodup_concat bs NDc) as [N1 N2].
    assert (forall x j c, nth_error bs j = Some c -> In x c -> In x ls) as Sub.
    { intros x j c Hj Hx. rewrite <- Ec. apply in_concat. exists c. split; [now apply nth_error_In in Hj|assumption]. }
    assert (In l ls) as Hl by (apply (Sub l i b Hb); rewrite Eb; apply in_app_iff; right; now left).
    assert (forall x, seen (snd P) x -> In x ls) as SeenIn.
    { intros x (j & h' & r' & Hj & Hx). destruct (I1 j _ Hj) as (c & Hc & Bc). apply (Sub x j c Hc). now apply (binv_sub c (h', r')). }
    assert (~ seen (snd P) l) as Fresh.
    { intros (j & h' & r' & Hj & Hx). destruct (I1 j _ Hj) as (c & Hc & Bc).
      assert (In l c) as Hlc by now apply (binv_sub c (h', r')).
      assert (i = j) as <- by (apply (N2 i j b c l Hb Hc); [rewrite Eb; apply in_app_iff; right; now left|assumption]).
      rewrite Ei in Hj. injection Hj as <- <-. pose proof (N1 i b Hb) as Nb. rewrite Eb in Nb.
      apply NoDup_remove_2 in Nb. apply Nb. apply in_app_iff. now left. }
    assert (fst P l = s0 l) as Same.
    { apply (proj2 I3). intros x Hx E. apply Fresh. assert (x = l) by (apply D2; auto). now subst x. }
    assert (forall s' r', (s' = fst (one (fst P) l)) ->
       (binv b (h ++ [l], r')) -> inv bs (s', replace_nth i (h ++ [l], r') (snd P))) as K.
    { intros s' r' Es Bn.
      assert (forall x, seen (replace_nth i (h ++ [l], r') (snd P)) x <-> seen (snd P) x \/ x = l) as Sn.
      { intro x. split.
        - intros (j & h' & r2 & Hj & Hx). rewrite nth_error_replace in Hj. destruct (Nat.eqb_spec i j) as [<-|Nij].
          + rewrite Ei in Hj. injection Hj as <- <-. apply in_app_iff in Hx as [Hx|[<-|[]]]; [|now right].
            left. exists i, h, (l :: r). auto.
          + left. exists j, h', r2. auto.
        - intros [(j & h' & r2 & Hj & Hx)| ->].
          + destruct (Nat.eq_dec i j) as [<-|Nij].
            * rewrite Ei in Hj. injection Hj as <- <-. exists i, (h ++ [l]), r'. rewrite nth_error_replace, Nat.eqb_refl, Ei.
              split; [reflexivity|]. apply in_app_iff. now left.
            * exists j, h', r2. rewrite nth_error_replace. destruct (Nat.eqb_spec i j); [congruence|]. auto.
          + exists i, (h ++ [l]), r'. rewrite nth_error_replace, Nat.eqb_refl, Ei. split; [reflexivity|]. apply in_app_iff. right. now left. }
      split; [|split]; cbn [fst snd].
      - intros j st Hj. rewrite nth_error_replace in Hj. destruct (Nat.eqb_spec i j) as [<-|Nij]; [|now apply I1].
        rewrite Ei in Hj. injection Hj as <-. eauto.
      - intros j c Hj. rewrite nth_error_replace. destruct (Nat.eqb_spec i j) as [<-|Nij]; [|now apply (I2 j c)]. rewrite Ei. eauto.
      - rewrite Es. unfold fix_one. rewrite Same. destruct I3 as [A1 A2].
        change (path_join o (basename l)) with (out l). split.
        + intros x Hx. apply Sn in Hx. destruct (repair (s0 l)) as [[c e]|e] eqn:Er; cbn [fst].
          * unfold put. destruct (streq_spec (out x) (out l)) as [Eo|No].
            -- assert (x = l) as ->; [|now rewrite Er]. destruct Hx as [Hx| ->]; [|reflexivity]. apply D1; auto.
            -- destruct Hx as [Hx| ->]; [now apply A1|congruence].
          * destruct Hx as [Hx| ->]; [now apply A1|]. rewrite Er. apply A2. intros x Hx Eo. apply Fresh.
            assert (l = x) as -> by (apply D1; auto). assumption.
        + intros q Hq. assert (q <> out l) as Nq by (apply Hq; apply Sn; now right).
          assert (fst P q = s0 q) as Eq by (apply A2; intros x Hx; apply Hq; apply Sn; now left).
          destruct (repair (s0 l)) as [[c e]|e]; cbn [fst]; [|assumption]. unfold put. destruct (streq_spec q (out l)); [congruence|assumption]. }
    assert (snd (one (fst P) l) = None <-> fine l) as Fl.
    { unfold fix_one, fine. rewrite Same. destruct (repair (s0 l)) as [[c e]|e]; cbn [snd].
      - split; [intros ->; eauto|intros [d E]; congruence].
      - split; [discriminate|intros [d E]; discriminate]. }
    destruct (one (fst P) l) as [s' [x|]] eqn:E1; cbn [fst snd] in K, Fl.
    - apply K; [reflexivity|]. right. split; [reflexivity|]. exists h, l, r. cbn [fst]. repeat split; auto. intro Hf. apply Fl in Hf. discriminate.
    - apply K; [reflexivity|]. left. cbn [fst snd]. split; [rewrite Eb, <- app_assoc; reflexivity|]. apply Forall_app. split; [assumption|].
      constructor; [now apply Fl|constructor].
  Qed.
  Lemma inv_start bs : inv bs (s0, map (fun b => ([], b)) bs).
  Proof.
    split; [|split]; cbn [fst snd].
    - intros i st H. rewrite nth_error_map in H. destruct (nth_error bs i) as [b|] eqn:E; [|discriminate].
      injection H as <-. exists b. split; [reflexivity|]. left. split; [reflexivity|constructor].
    - intros i b H. exists ([], b). now rewrite nth_error_map, H.
    - split.
      + intros l (i & h & r & H & Hl). rewrite nth_error_map in H. destruct (nth_error bs i); [|discriminate]. injection H as <- <-. destruct Hl.
      + reflexivity.
  Qed.
  Lemma inv_run bs sched : separate -> concat bs = ls -> forall P, inv bs P -> inv bs (fold_left (pool_step C repair (Some o)) sched P).
  Proof.
    intros S E. induction sched as [|i sched IH]; intros P H; [assumption|]. cbn [fold_left]. apply IH. now apply inv_step.
  Qed.

  Lemma binv_tried b h l : binv b (h, []) -> (In l h <-> tried b l).
  Proof.
    intros B. split.
    - intro Hl. destruct B as [[-> F]|(_ & pre & x & post & -> & E & F & Nx)]; cbn [fst snd] in *.
      + rewrite app_nil_r. apply in_split in Hl as (p1 & p2 & ->). apply Forall_app in F as [F1 _]. now exists p1, p2.
      + rewrite E in Hl. apply in_app_iff in Hl as [Hl|[<-|[]]]; [|now exists pre, post].
        apply in_split in Hl as (p1 & p2 & ->). apply Forall_app in F as [F1 _]. exists p1, (p2 ++ x :: post).
        split; [now rewrite <- app_assoc|assumption].
    - intros (p1 & p2 & Eb & F1). destruct B as [[-> F]|(_ & pre & x & post & E2 & E & F & Nx)]; cbn [fst snd] in *.
      + rewrite app_nil_r in Eb. rewrite Eb. apply in_app_iff. right. now left.
      + rewrite E. rewrite Eb in E2. clear -E2 F1 Nx. revert pre E2. induction p1 as [|y p1 IH]; intros [|z pre] E2; cbn [app] in E2.
        * injection E2 as -> _. now left.
        * injection E2 as -> _. now left.
        * injection E2 as -> _. inversion F1; subst. contradiction.
        * injection E2 as -> E2. right. inversion F1; subst. now apply IH.
  Qed.

  (** However the files are divided into batches and in whatever order the workers go on: when all are done, exactly the files
      before and at the first failure of each batch were tried, and no other file changed; failures are not reported. *)
  Theorem C103_pool : forall bs sched, separate -> concat bs = ls ->
    let P := pool_of s0 bs sched in
    joined C P ->
    after (fun l => exists b, In b bs /\ tried b l) (fst P) /\ pool_status C P = Ok tt.
  Proof.
    intros bs sched S E P J. split; [|reflexivity].
    assert (inv bs P) as (I1 & I2 & A1 & A2) by (apply inv_run; auto; apply inv_start).
    assert (forall l, seen (snd P) l <-> exists b, In b bs /\ tried b l) as Sn.
    { intro l. split.
      - intros (i & h & r & Hi & Hl). destruct (I1 i _ Hi) as (b & Hb & B). exists b. split; [now apply nth_error_In in Hb|].
        assert (r = []) as -> by (apply (J (h, r)); now apply nth_error_In in Hi). now apply (binv_tried b h).
      - intros (b & Hb & T). apply In_nth_error in Hb as [i Hi]. destruct (I2 i b Hi) as [[h r] Hst].
        destruct (I1 i _ Hst) as (b' & Hb' & B). assert (b' = b) as -> by congruence.
        assert (r = []) as -> by (apply (J (h, r)); now apply nth_error_In in Hst).
        exists i, h, []. split; [assumption|]. now apply (binv_tried b h l B). }
    split.
    - intros l Hl. apply A1. now apply Sn.
    - intros q Hq. apply A2. intros l Hl. apply Hq. now apply Sn.
  Qed.

  Lemma single_run bs' : forall h s st,
    fix_single C repair (Some o) s bs' = st ->
    fst st = fst (fold_left (pool_step C repair (Some o)) (repeat 0 (length bs')) (s, [(h, bs')])) /\
    (forall b, In b (snd (fold_left (pool_step C repair (Some o)) (repeat 0 (length bs')) (s, [(h, bs')]))) -> snd b = []).
  Proof.
    induction bs' as [|l r IH]; intros h s st E; cbn [fix_single length repeat fold_left] in *.
    - subst st. cbn. split; [reflexivity|]. intros b [<-|[]]. reflexivity.
    - unfold pool_step at 2 4. cbn [snd nth_error fst]. destruct (one s l) as [s' [x|]].
      + cbn [replace_nth]. subst st. cbn [fst].
        assert (forall n, fold_left (pool_step C repair (Some o)) (repeat 0 n) (s', [(h ++ [l], [])]) = (s', [(h ++ [l], [])])) as K.
        { induction n as [|n In]; [reflexivity|]. cbn [repeat fold_left]. exact In. }
        rewrite K. cbn. split; [reflexivity|]. intros b [<-|[]]. reflexivity.
      + cbn [replace_nth]. now apply IH.
  Qed.
  (** One process: the files up to the first failure are tried, and the script ends with it. *)
  Theorem C103_single : forall s r, separate -> fix_single C repair (Some o) s0 ls = (s, r) ->
    after (tried ls) s /\
    (r = Ok tt <-> Forall fine ls) /\
    (forall x, r = Raise x -> exists l, tried ls l /\ (repair (s0 l) = Raise x \/ exists c, repair (s0 l) = Ok (c, Some x))).
  Proof.
    intros s r S E.
    destruct (single_run ls [] s0 _ E) as [E1 J]. cbn [fst] in E1.
    change (s0, [([], ls)]) with (s0, map (fun b : list pystr => (@nil pystr, b)) [ls]) in E1, J.
    assert (joined C (pool_of s0 [ls] (repeat 0 (length ls)))) as J' by exact J.
    destruct (C103_pool [ls] (repeat 0 (length ls)) S) as [[A1 A2] _]; [cbn; apply app_nil_r|exact J'|]. unfold fix_pool in A1, A2.
    rewrite <- E1 in A1, A2. split; [|].
    - split; [intros l Hl; apply A1; exists ls; split; [now left|assumption]|].
      intros q Hq. apply A2. intros l (b & [<-|[]] & T). now apply Hq.
    - assert (forall done todo s1, ls = done ++ todo -> Forall fine done ->
         (forall l, In l todo -> s1 l = s0 l) -> fix_single C repair (Some o) s1 todo = (s, r) ->
         (r = Ok tt <-> Forall fine ls) /\
         (forall x, r = Raise x -> exists l, tried ls l /\ (repair (s0 l) = Raise x \/ exists c, repair (s0 l) = Ok (c, Some x)))) as K.
      { destruct S as (ND & D1 & D2). intros done todo. revert done. induction todo as [|l todo IH]; intros done s1 El Fd Same E2; cbn [fix_single] in E2.
        - injection E2 as <- <-. rewrite app_nil_r in El. split; [rewrite El; tauto|discriminate].
        - unfold fix_one in E2. rewrite (Same l (or_introl eq_refl)) in E2.
          assert (tried ls l) as T by now exists done, todo.
          destruct (repair (s0 l)) as [[c [x|]]|x] eqn:Er.
          + injection E2 as <- <-. split.
            * split; [discriminate|]. intro F. rewrite El in F. apply Forall_app in F as [_ F]. inversion F as [|? ? [d Hd] _]; subst. congruence.
            * intros y Hy. injection Hy as <-. exists l. split; [assumption|]. right. eauto.
          + eapply (IH (done ++ [l])); [rewrite El, <- app_assoc; reflexivity|apply Forall_app; split; [assumption|constructor; [now exists c|constructor]]| |exact E2].
            intros k Hk. unfold put. change (path_join o (basename l)) with (out l). destruct (streq_spec k (out l)) as [Ek|_]; [|apply Same; now right].
            exfalso. assert (l = k) as <-.
            { apply D2; [rewrite El; apply in_app_iff; right; now left|rewrite El; apply in_app_iff; right; now right|congruence]. }
            rewrite El in ND. apply NoDup_remove_2 in ND. apply ND. apply in_app_iff. now right.
          + injection E2 as <- <-. split.
            * split; [discriminate|]. intro F. rewrite El in F. apply Forall_app in F as [_ F]. inversion F as [|? ? [d Hd] _]; subst. congruence.
            * intros y Hy. injection Hy as <-. exists l. split; [assumption|]. now left. }
      apply (K [] ls s0); auto.
  Qed.
End Run.

(** Two directories with a file of the same name: only one of the results is left, and with more processes either. *)
Definition ex_two : list pystr := to_repair [] [(lit "a", [lit "x.xml"; lit "readme"]); (lit "b", [lit "x.xml"])].
Definition ex_files (p : pystr) : option pystr := if streq p (lit "a/x.xml") then Some (lit "A") else if streq p (lit "b/x.xml") then Some (lit "B") else None.
Definition ex_repair (c : option pystr) : res (pystr * option exn) :=
  match c with
  | Some c => if streq c (lit "bad") then Raise SyntaxErr else Ok (lit "fixed " ++ c, None)
  | None => Ok (lit "<ldml/>", None)
  end.
Theorem C103_same_name_refuted :
  ex_two = [lit "a/x.xml"; lit "b/x.xml"] /\
  (exists s, fix_single pystr ex_repair (Some (lit "o")) ex_files ex_two = (s, Ok tt) /\ s (lit "o/x.xml") = Some (lit "fixed B")) /\
  exists sched sched', let P := fix_pool pystr ex_repair (Some (lit "o")) ex_files (map (fun l => [l]) ex_two) in
    joined pystr (P sched) /\ joined pystr (P sched') /\
    fst (P sched) (lit "o/x.xml") = Some (lit "fixed B") /\ fst (P sched') (lit "o/x.xml") = Some (lit "fixed A").
Proof.
  split; [vm_compute; reflexivity|]. split; [eexists; split; [vm_compute; reflexivity|vm_compute; reflexivity]|].
  exists [0; 1], [1; 0]. cbv zeta.
  split; [intros b H; vm_compute in H; destruct H as [<-|[<-|[]]]; reflexivity|].
  split; [intros b H; vm_compute in H; destruct H as [<-|[<-|[]]]; reflexivity|].
  split; vm_compute; reflexivity.
Qed.
(** A file that fails takes the rest of its batch with it, and nothing is reported. *)
Theorem C103_silent_refuted :
  let s0 p := if streq p (lit "a/1.xml") then Some (lit "bad") else if streq p (lit "a/2.xml") then Some (lit "good") else None in
  let P := fix_pool pystr ex_repair (Some (lit "o")) s0 [[lit "a/1.xml"; lit "a/2.xml"]] [0; 0] in
  joined pystr P /\ fst P (lit "o/2.xml") = None /\ pool_status pystr P = Ok tt.
Proof. cbv zeta. split; [intros b H; vm_compute in H; destruct H as [<-|[]]; reflexivity|]. split; vm_compute; reflexivity. Qed.
(** --locale wants a path: for the name of a locale an empty document is written, under that name. *)
Theorem C103_locale_refuted : forall C (repair : option C -> res (C * option exn)) o (s : pystr -> option C) l c,
  s l = None -> repair None = Ok (c, None) -> ~ In 47%N l ->
  exists s', fix_single C repair (Some o) s (to_repair [l] []) = (s', Ok tt) /\ s' (path_join o l) = Some c.
Proof.
  intros C repair o s l c Hs Hc Nl. cbn [to_repair fix_single]. unfold fix_one. rewrite Hs, Hc. eexists. split; [reflexivity|].
  unfold put. assert (basename l = l) as ->; [|now rewrite streq_refl]. unfold basename. now rewrite split_on_nosep.
Qed.
(** Without --outdir every file fails and nothing is written. *)
Theorem C103_outdir_refuted : forall C (repair : option C -> res (C * option exn)) (s : pystr -> option C) l ls,
  fst (fix_single C repair None s (l :: ls)) = s /\ exists x, snd (fix_single C repair None s (l :: ls)) = Raise x.
Proof.
  intros C repair s l ls. cbn [fix_single]. unfold fix_one. destruct (repair (s l)) as [[c x]|x]; cbn; split; eauto.
Qed.
(** The hypotheses of C103_pool and C103_single are met. *)
Example C103_separate_case : separate (lit "o") [lit "a/1.xml"; lit "a/2.xml"] /\ separate (lit "a") [lit "a/1.xml"; lit "a/2.xml"].
Proof.
  split; (split; [repeat constructor; cbn; intuition discriminate|]); (split; intros l l' [<-|[<-|[]]] [<-|[<-|[]]]; vm_compute; congruence).
Qed.
