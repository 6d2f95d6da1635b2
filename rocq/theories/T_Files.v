(** C86: which files are visited, and which file of a locale is loaded. *)
From Coq Require Import String Sorted Permutation.
From Verif Require Import Py PyFacts M_Files.
Local Open Scope list_scope.

(** * Specification *)
(** the file whose path below the directory has the parts [names] *)
Inductive in_dir : dir -> list pystr -> Prop :=
| in_here files subs f : In f files -> in_dir (Dir files subs) [f]
| in_below files subs n d names : In (n, d) subs -> in_dir d names -> in_dir (Dir files subs) (n :: names).
(** names: not empty and without a slash; in one directory different from each other *)
Definition plain_name (n : pystr) : Prop := n <> [] /\ ~ In 47%N n.
Inductive plain_dir : dir -> Prop :=
| plain_here files subs : (forall f, In f files -> plain_name f) ->
    (forall n d, In (n, d) subs -> plain_name n /\ plain_dir d) -> plain_dir (Dir files subs).
Inductive distinct_dir : dir -> Prop :=
| distinct_here files subs : NoDup files -> NoDup (map fst subs) ->
    (forall n d, In (n, d) subs -> distinct_dir d) -> distinct_dir (Dir files subs).
(** the path with a slash before each part *)
Definition slashed (r : pystr) (names : list pystr) : pystr := r ++ flat_map (fun n => 47%N :: n) names.
(** [root] is [r], perhaps with a slash at its end *)
Definition is_root (r root : pystr) : Prop :=
  root = r ++ [47%N] \/ (root = r /\ r <> [] /\ forall s, r <> s ++ [47%N]).
Definition ends_in (ext : pystr) (names : list pystr) : Prop := exists init stem, names = init ++ [stem ++ ext].

(** * Proof *)
Lemma dir_ind2 (P : dir -> Prop) :
  (forall files subs, (forall n d, In (n, d) subs -> P d) -> P (Dir files subs)) -> forall d, P d.
Proof.
  intro H. fix IH 1. intros [files subs]. apply H.
  induction subs as [|[n s] l IHl]; intros m d Hin; [destruct Hin|].
  destruct Hin as [E|Hin]; [injection E as _ <-; apply IH|now apply (IHl m d)].
Qed.
Lemma starts_spec p s : startswith p s = true <-> exists t, s = p ++ t.
Proof.
  unfold startswith. revert s; induction p as [|x p IH]; intros s; cbn [strip_prefix app].
  - split; [intros _; eauto|reflexivity].
  - destruct s as [|y s]; [split; [discriminate|intros (t & E); discriminate]|].
    destruct (N.eqb_spec x y) as [->|N1].
    + rewrite IH. split; intros (t & E); exists t; congruence.
    + split; [discriminate|]. intros (t & E). congruence.
Qed.
Lemma endswith_spec ext f : endswith ext f = true <-> exists stem, f = stem ++ ext.
Proof.
  unfold endswith. rewrite starts_spec. split; intros (t & E).
  - exists (rev t). apply (f_equal (@rev N)) in E. now rewrite rev_involutive, rev_app_distr, rev_involutive in E.
  - exists (rev t). rewrite E. apply rev_app_distr.
Qed.

Lemma pjoin_root r root n : is_root r root -> plain_name n -> pjoin root n = r ++ 47%N :: n.
Proof.
  intros R [Nn Hn]. unfold pjoin.
  assert (startswith [47%N] n = false) as ->.
  { destruct (startswith [47%N] n) eqn:E; [|reflexivity]. apply starts_spec in E as (t & ->). exfalso. apply Hn. now left. }
  destruct R as [->|(-> & Nr & E)].
  - rewrite rev_app_distr. cbn. now rewrite <- app_assoc.
  - destruct (rev r) as [|c q] eqn:Er.
    + apply (f_equal (@rev N)) in Er. rewrite rev_involutive in Er. contradiction.
    + destruct (N.eqb_spec c 47) as [->|]; [|reflexivity]. exfalso. apply (E (rev q)).
      apply (f_equal (@rev N)) in Er. now rewrite rev_involutive in Er.
Qed.
Lemma sub_root r n : plain_name n -> is_root (r ++ 47%N :: n) (r ++ 47%N :: n).
Proof.
  intros [Nn Hn]. right. split; [reflexivity|]. split; [destruct r; discriminate|]. intros s E.
  destruct n as [|c n _] using rev_ind; [congruence|]. change (47%N :: n ++ [c]) with ((47%N :: n) ++ [c]) in E.
  rewrite app_assoc in E. apply app_inj_tail in E as [_ ->]. apply Hn. apply in_app_iff. right. now left.
Qed.

(** the files as lists of parts, in the order of the walk *)
Fixpoint all_names (d : dir) : list (list pystr) :=
  match d with
  | Dir files subs =>
      map (fun f => [f]) files ++ (fix go (l : list (pystr * dir)) : list (list pystr) :=
                                     match l with
                                     | [] => []
                                     | (n, s) :: l' => map (cons n) (all_names s) ++ go l'
                                     end) subs
  end.
Lemma all_names_eq files subs : all_names (Dir files subs) =
  map (fun f => [f]) files ++ flat_map (fun nd => map (cons (fst nd)) (all_names (snd nd))) subs.
Proof. cbn. f_equal. induction subs as [|[n s] l IH]; [reflexivity|]. cbn. now rewrite IH. Qed.
Lemma walk_eq path files subs : walk path (Dir files subs) =
  (path, files) :: flat_map (fun nd => walk (pjoin path (fst nd)) (snd nd)) subs.
Proof. cbn. f_equal. induction subs as [|[n s] l IH]; [reflexivity|]. cbn. now rewrite IH. Qed.
Lemma all_names_spec d names : In names (all_names d) <-> in_dir d names.
Proof.
  revert names. induction d as [files subs IH] using dir_ind2. intro names. rewrite all_names_eq, in_app_iff, in_map_iff, in_flat_map. split.
  - intros [(f & <- & Hf)|([n d] & Hd & Hn)]; [now constructor|]. cbn in Hn. apply in_map_iff in Hn as (l & <- & Hl).
    econstructor; [exact Hd|]. now apply (IH n d).
  - intro H. inversion H; subst; [left; eexists; split; [reflexivity|assumption]|right].
    exists (n, d). split; [assumption|]. cbn. apply in_map. now apply (IH n d).
Qed.
Definition last_ends (ext : pystr) (names : list pystr) : bool :=
  match rev names with [] => false | f :: _ => endswith ext f end.
Lemma last_ends_spec ext names : last_ends ext names = true <-> ends_in ext names.
Proof.
  unfold last_ends, ends_in. destruct names as [|f init _] using rev_ind.
  - split; [discriminate|]. intros (i & s & E). destruct i; discriminate.
  - rewrite rev_app_distr. cbn. rewrite endswith_spec. split.
    + intros (s & ->). now exists init, s.
    + intros (i & s & E). apply app_inj_tail in E as [_ ->]. now exists s.
Qed.
Lemma filter_map {X Y} (f : X -> Y) p l : filter p (map f l) = map f (filter (fun x => p (f x)) l).
Proof. induction l as [|x l IH]; [reflexivity|]. cbn. destruct (p (f x)); cbn; now rewrite IH. Qed.
Lemma filter_flat {X Y} (f : X -> list Y) p l : filter p (flat_map f l) = flat_map (fun x => filter p (f x)) l.
Proof. induction l as [|x l IH]; [reflexivity|]. cbn. now rewrite filter_app, IH. Qed.
Lemma map_flat {X Y Z} (f : X -> list Y) (g : Y -> Z) l : map g (flat_map f l) = flat_map (fun x => map g (f x)) l.
Proof. induction l as [|x l IH]; [reflexivity|]. cbn. now rewrite map_app, IH. Qed.
Lemma flat_flat {X Y Z} (f : X -> list Y) (g : Y -> list Z) l : flat_map g (flat_map f l) = flat_map (fun x => flat_map g (f x)) l.
Proof. induction l as [|x l IH]; [reflexivity|]. cbn. now rewrite flat_map_app, IH. Qed.
Lemma flat_ext {X Y} (f g : X -> list Y) l : (forall x, In x l -> f x = g x) -> flat_map f l = flat_map g l.
Proof. induction l as [|x l IH]; intro H; [reflexivity|]. cbn. rewrite (H x (or_introl eq_refl)), IH; [reflexivity|]. intros y Hy. apply H. now right. Qed.

Lemma in_dir_nonempty d names : in_dir d names -> names <> [].
Proof. intros H ->. inversion H. Qed.
Lemma walked ext d : plain_dir d -> forall r root, is_root r root ->
  flat_map (fun w => map (pjoin (fst w)) (filter (endswith ext) (snd w))) (walk root d)
  = map (slashed r) (filter (last_ends ext) (all_names d)).
Proof.
  induction d as [files subs IH] using dir_ind2. intros P r root R. inversion P as [? ? Pf Ps]; subst.
  rewrite walk_eq, all_names_eq. cbn [flat_map fst snd]. rewrite filter_app, map_app. f_equal.
  - rewrite filter_map. change (fun x => last_ends ext [x]) with (endswith ext). rewrite map_map.
    apply map_ext_in. intros f Hf. apply filter_In in Hf as [Hf _].
    rewrite (pjoin_root r root f R (Pf f Hf)). unfold slashed. cbn. now rewrite app_nil_r.
  - rewrite flat_flat, filter_flat, map_flat. apply flat_ext. intros [n d] Hin. cbn [fst snd].
    destruct (Ps n d Hin) as [Pn Pd]. rewrite (pjoin_root r root n R Pn).
    rewrite (IH n d Hin Pd _ _ (sub_root r n Pn)), filter_map, map_map.
    assert (filter (last_ends ext) (all_names d) = filter (fun x => last_ends ext (n :: x)) (all_names d)) as ->.
    { apply filter_ext_in. intros names Hn. apply all_names_spec, in_dir_nonempty in Hn.
      unfold last_ends. cbn [rev]. destruct (rev names) as [|f q] eqn:E; [|reflexivity].
      apply (f_equal (@rev pystr)) in E. rewrite rev_involutive in E. contradiction. }
    apply map_ext. intro names. unfold slashed. cbn. now rewrite <- app_assoc.
Qed.
Lemma in_dir_plain d names : plain_dir d -> in_dir d names -> forall n, In n names -> plain_name n.
Proof.
  intros P H. induction H as [files subs f Hf|files subs n d names Hin H IH]; inversion P as [? ? Pf Ps]; subst; intros m Hm.
  - destruct Hm as [<-|[]]. now apply Pf.
  - destruct Hm as [<-|Hm]; [now apply (Ps n d)|]. apply IH; [now apply (Ps n d)|assumption].
Qed.
Lemma cut (a b : pystr) r s : ~ In 47%N a -> ~ In 47%N b ->
  (r = [] \/ exists r', r = 47%N :: r') -> (s = [] \/ exists s', s = 47%N :: s') -> a ++ r = b ++ s -> a = b /\ r = s.
Proof.
  revert b. induction a as [|x a IH]; intros [|y b] Ha Hb Hr Hs E; cbn in E.
  - auto.
  - exfalso. destruct Hr as [->|(r' & ->)]; [discriminate|]. injection E as <- _. apply Hb. now left.
  - exfalso. destruct Hs as [->|(s' & ->)]; [discriminate|]. injection E as -> _. apply Ha. now left.
  - injection E as <- E. destruct (IH b) as [-> ->]; auto; intro; [apply Ha|apply Hb]; now right.
Qed.
Lemma slashed_start (l : list pystr) : flat_map (fun n => 47%N :: n) l = [] \/ exists r, flat_map (fun n => 47%N :: n) l = 47%N :: r.
Proof. destruct l; [now left|right; eexists; reflexivity]. Qed.
Lemma slashed_inj r l l' : (forall n, In n l -> plain_name n) -> (forall n, In n l' -> plain_name n) ->
  slashed r l = slashed r l' -> l = l'.
Proof.
  intros P P' E. unfold slashed in E. apply app_inv_head in E. revert l' P' E.
  induction l as [|n l IH]; intros [|n' l'] P' E; cbn in E; [reflexivity|discriminate|discriminate|]. injection E as E.
  apply cut in E as [-> E]; [|apply P; now left|apply P'; now left|apply slashed_start|apply slashed_start].
  f_equal. apply IH; [intros m Hm; apply P; now right|intros m Hm; apply P'; now right|assumption].
Qed.
Lemma NoDup_app2 {X} (a b : list X) : NoDup a -> NoDup b -> (forall x, In x a -> ~ In x b) -> NoDup (a ++ b).
Proof.
  induction a as [|x a IH]; intros Na Nb H; [assumption|]. inversion Na; subst. cbn. constructor.
  - rewrite in_app_iff. intros [I|I]; [contradiction|]. now apply (H x (or_introl eq_refl)).
  - apply IH; [assumption|assumption|]. intros y Hy. apply H. now right.
Qed.
Lemma NoDup_map_inj {X Y} (f : X -> Y) l : (forall x y, In x l -> In y l -> f x = f y -> x = y) -> NoDup l -> NoDup (map f l).
Proof.
  induction l as [|x l IH]; intros H Nl; [constructor|]. inversion Nl as [|? ? Hx Nl']; subst. cbn. constructor.
  - intro Hin. apply in_map_iff in Hin as (y & E & Hy). apply Hx. rewrite (H x y); auto; [now left|now right].
  - apply IH; [|assumption]. intros y z Hy Hz. apply H; now right.
Qed.
Lemma all_names_NoDup d : distinct_dir d -> NoDup (all_names d).
Proof.
  induction d as [files subs IH] using dir_ind2. intro D. inversion D as [? ? Nf Ns Ds]; subst. rewrite all_names_eq.
  apply NoDup_app2.
  - apply NoDup_map_inj; [|assumption]. intros x y _ _ E. now injection E.
  - clear D Nf. induction subs as [|[n d] l IHl]; [constructor|]. cbn [flat_map fst snd].
    cbn in Ns. inversion Ns as [|? ? Hn Ns']; subst. apply NoDup_app2.
    + apply NoDup_map_inj; [intros x y _ _ E; now injection E|]. apply (IH n d); [now left|]. apply (Ds n d). now left.
    + apply IHl; [intros m e H; apply (IH m e); now right|assumption|intros m e H; apply (Ds m e); now right].
    + intros x Hx Hin. apply in_map_iff in Hx as (a & <- & _). apply in_flat_map in Hin as ([m e] & Hm & Hin).
      cbn in Hin. apply in_map_iff in Hin as (b & E & _). injection E as -> _. apply Hn.
      change n with (fst (n, e)). now apply in_map.
  - intros x Hx Hin. apply in_map_iff in Hx as (f & <- & _). apply in_flat_map in Hin as ([m e] & Hm & Hin).
    cbn in Hin. apply in_map_iff in Hin as (b & E & Hb). injection E as _ ->.
    apply all_names_spec, in_dir_nonempty in Hb. congruence.
Qed.

(** ** C86: a tree is visited completely: exactly the files with the extension *)
Theorem C86_files : forall r root ext d p, is_root r root -> plain_dir d ->
  In p (iterate_files root ext (Some d)) <-> exists names, in_dir d names /\ ends_in ext names /\ p = slashed r names.
Proof.
  intros r root ext d p R P. unfold iterate_files. rewrite in_isort, (walked ext d P r root R), in_map_iff. split.
  - intros (names & <- & H). apply filter_In in H as [H E]. exists names. split; [now apply all_names_spec|].
    split; [now apply last_ends_spec|reflexivity].
  - intros (names & H & E & ->). exists names. split; [reflexivity|]. apply filter_In.
    split; [now apply all_names_spec|now apply last_ends_spec].
Qed.

(** ** C86: each file once, in the order of the paths *)
Theorem C86_sorted : forall r root ext d, is_root r root -> plain_dir d -> distinct_dir d ->
  StronglySorted (fun a b => strleb a b = true /\ a <> b) (iterate_files root ext (Some d)).
Proof.
  intros r root ext d R P D.
  assert (NoDup (iterate_files root ext (Some d))) as Nd.
  { unfold iterate_files. eapply Permutation_NoDup; [apply isort_perm|].
    rewrite (walked ext d P r root R). apply NoDup_map_inj; [|apply NoDup_filter, all_names_NoDup, D].
    intros x y Hx Hy E. apply filter_In in Hx as [Hx _]. apply filter_In in Hy as [Hy _].
    apply all_names_spec in Hx. apply all_names_spec in Hy.
    eapply slashed_inj; [eapply in_dir_plain; eassumption|eapply in_dir_plain; eassumption|exact E]. }
  assert (StronglySorted (fun a b => strleb a b = true) (iterate_files root ext (Some d))) as Ss.
  { apply isort_sorted; [apply strleb_total|apply strleb_trans]. }
  induction Ss as [|a l Ss IH F]; [constructor|]. inversion Nd as [|? ? Ha Nd']; subst. constructor; [now apply IH|].
  rewrite Forall_forall in *. intros b Hb. split; [now apply F|]. intros ->. contradiction.
Qed.

(** ** C86: the order in which the system lists a directory does not matter *)
Theorem C86_listing : forall r root ext d d', is_root r root -> plain_dir d -> plain_dir d' -> distinct_dir d -> distinct_dir d' ->
  (forall names, in_dir d names <-> in_dir d' names) ->
  iterate_files root ext (Some d) = iterate_files root ext (Some d').
Proof.
  intros r root ext d d' R P P' D D' H. unfold iterate_files.
  rewrite (walked ext d P r root R), (walked ext d' P' r root R).
  apply isort_perm_eq; [apply strleb_total|apply strleb_trans|intros a b _ _; apply strleb_antisym|].
  apply Permutation_map. apply NoDup_Permutation; [now apply NoDup_filter, all_names_NoDup|now apply NoDup_filter, all_names_NoDup|].
  intro x. rewrite !filter_In, !all_names_spec, H. reflexivity.
Qed.

(** ** C86: a root that is not there is an empty one, without an error *)
Theorem C86_missing : forall root ext, iterate_files root ext None = [] /\ iterate_files root ext (Some (Dir [] [])) = [].
Proof. intros root ext. split; reflexivity. Qed.

(** * The file of a locale *)
Section Locale.
  Context (lower : N -> pystr) (there : pystr -> bool).
  Definition proper_root (i : pystr) : Prop := i <> [] /\ forall s, i <> s ++ [47%N].
  (** directly in a directory, and in its subdirectory for the first letter *)
  Definition file_of (loc : pystr) : pystr := map (fun c => if N.eqb c 45 then 95%N else c) loc ++ lit ".xml".
  Definition direct (loc i : pystr) : pystr := i ++ lit "/./" ++ file_of loc.
  Definition lettered (c : N) (loc i : pystr) : pystr := i ++ [47%N] ++ lower c ++ [47%N] ++ file_of loc.
  (** the first of the directories where there is something at [g] *)
  Definition first_there (g : pystr -> pystr) (indirs : list pystr) (f : pystr) : Prop :=
    exists pre i post, indirs = pre ++ i :: post /\ f = g i /\ there f = true /\ forall j, In j pre -> there (g j) = false.
  Definition nowhere (g : pystr -> pystr) (indirs : list pystr) : Prop := forall j, In j indirs -> there (g j) = false.
  (** locales whose first letter is a letter *)
  Definition proper_letter (c : N) : Prop := c <> 47%N /\ c <> 45%N /\ plain_name (lower c).

  Lemma join_two i n f : proper_root i -> plain_name n -> (forall t, f <> 47%N :: t) ->
    pjoin (pjoin i n) f = i ++ 47%N :: n ++ 47%N :: f.
  Proof.
    intros [Ni Ei] Pn Hf. rewrite (pjoin_root i i n); [|right; auto|assumption].
    destruct (sub_root i n Pn) as [E|(_ & Nr & E)].
    - exfalso. apply (f_equal (@List.length N)) in E. rewrite !app_length in E. cbn in E. lia.
    - unfold pjoin. assert (startswith [47%N] f = false) as ->.
      { destruct (startswith [47%N] f) eqn:Es; [|reflexivity]. apply starts_spec in Es as (t & ->). exfalso. now apply (Hf t). }
      destruct (rev (i ++ 47%N :: n)) as [|c q] eqn:Er.
      + apply (f_equal (@rev N)) in Er. rewrite rev_involutive in Er. contradiction.
      + destruct (N.eqb_spec c 47) as [->|].
        * exfalso. apply (E (rev q)). apply (f_equal (@rev N)) in Er. now rewrite rev_involutive in Er.
        * now rewrite <- app_assoc.
  Qed.
  Lemma candidates_eq c loc indirs : (forall i, In i indirs -> proper_root i) -> proper_letter c ->
    candidates lower c (c :: loc) indirs = map (direct (c :: loc)) indirs ++ map (lettered c (c :: loc)) indirs.
  Proof.
    intros Hi (N1 & N2 & Pl). unfold candidates. cbn [flat_map]. rewrite app_nil_r.
    assert (forall t, dashes (c :: loc) ++ lit ".xml" <> 47%N :: t) as Hf.
    { intros t E. unfold dashes in E. cbn [map] in E. destruct (N.eqb c 45) eqn:Ec; cbn in E; injection E as E _; congruence. }
    f_equal; apply map_ext_in; intros i I.
    - rewrite join_two; [reflexivity|now apply Hi| |exact Hf].
      split; [discriminate|]. intros [E|[]]. discriminate.
    - rewrite join_two; [reflexivity|now apply Hi|exact Pl|exact Hf].
  Qed.
  Lemma find_map g indirs f : List.find there (map g indirs) = Some f <-> first_there g indirs f.
  Proof.
    induction indirs as [|i l IH]; cbn.
    - split; [discriminate|]. intros (pre & i & post & E & _). destruct pre; discriminate.
    - destruct (there (g i)) eqn:E.
      + split.
        * intro H. injection H as <-. exists [], i, l. repeat split; [assumption|intros j []].
        * intros ([|j pre] & k & post & E1 & -> & T & H); injection E1 as -> ->; [reflexivity|].
          rewrite (H j (or_introl eq_refl)) in E. discriminate.
      + rewrite IH. split.
        * intros (pre & k & post & -> & -> & T & H). exists (i :: pre), k, post. repeat split; [assumption|].
          intros j [<-|Hj]; [assumption|now apply H].
        * intros ([|j pre] & k & post & E1 & -> & T & H); injection E1 as -> ->; [congruence|].
          exists pre, k, post. repeat split; [assumption|]. intros j' Hj. apply H. now right.
  Qed.
  Lemma find_none g indirs : List.find there (map g indirs) = None <-> nowhere g indirs.
  Proof.
    unfold nowhere. split.
    - intros H j Hj. apply (find_none there _ H). now apply in_map.
    - intro H. induction indirs as [|i l IH]; [reflexivity|]. cbn. rewrite (H i (or_introl eq_refl)). apply IH.
      intros j Hj. apply H. now right.
  Qed.
  Lemma find_app (a b : list pystr) : List.find there (a ++ b) = match List.find there a with Some x => Some x | None => List.find there b end.
  Proof. induction a as [|x a IH]; [reflexivity|]. cbn. destruct (there x); [reflexivity|exact IH]. Qed.

  (** ** C86: what is loaded: the first directory with the file itself, and only if no directory has
      it, the first with the file in the subdirectory of its letter *)
  Theorem C86_locale : forall c loc indirs f, (forall i, In i indirs -> proper_root i) -> proper_letter c ->
    getldml lower there (c :: loc) indirs = Ok (Some f) <->
    first_there (direct (c :: loc)) indirs f \/
    (nowhere (direct (c :: loc)) indirs /\ first_there (lettered c (c :: loc)) indirs f).
  Proof.
    intros c loc indirs f Hi Hc. unfold getldml. rewrite candidates_eq, find_app by assumption.
    destruct (List.find there (map (direct (c :: loc)) indirs)) as [x|] eqn:E.
    - split.
      + intro H. injection H as ->. left. now apply find_map.
      + intros [H|[H _]]; [apply find_map in H; congruence|]. apply find_none in H. congruence.
    - split.
      + intro H. injection H as H. right. split; [now apply find_none|now apply find_map].
      + intros [H|[_ H]]; [apply find_map in H; congruence|]. f_equal. now apply find_map.
  Qed.
  Theorem C86_no_locale : forall c loc indirs, (forall i, In i indirs -> proper_root i) -> proper_letter c ->
    getldml lower there (c :: loc) indirs = Ok None <->
    nowhere (direct (c :: loc)) indirs /\ nowhere (lettered c (c :: loc)) indirs.
  Proof.
    intros c loc indirs Hi Hc. unfold getldml. rewrite candidates_eq, find_app by assumption.
    destruct (List.find there (map (direct (c :: loc)) indirs)) as [x|] eqn:E.
    - split; [discriminate|]. intros [H _]. apply find_none in H. congruence.
    - split.
      + intro H. injection H as H. split; now apply find_none.
      + intros [_ H]. f_equal. now apply find_none.
  Qed.
End Locale.

(** ** C86: hyphens and underscores are the same; the empty name is an error *)
Theorem C86_spelling : forall lower there c a b indirs,
  map (fun x => if N.eqb x 45 then 95%N else x) a = map (fun x => if N.eqb x 45 then 95%N else x) b ->
  getldml lower there (c :: a) indirs = getldml lower there (c :: b) indirs /\ getldml lower there [] indirs = Raise IndexError.
Proof.
  intros lower there c a b indirs E. split; [|reflexivity]. unfold getldml, candidates, dashes. cbn [map]. now rewrite E.
Qed.

(** ** C86: the order of the directories is not their priority: a locale of the first directory
    is overruled by one of a later directory *)
Theorem C86_priority_refuted : forall lower c loc i j, proper_root i -> proper_root j -> i <> j -> proper_letter lower c ->
  lower c <> lit "." ->
  exists there, there (lettered lower c (c :: loc) i) = true /\
    getldml lower there (c :: loc) [i; j] = Ok (Some (direct (c :: loc) j)).
Proof.
  intros lower c loc i j Pi Pj Nij Hc Nd.
  exists (fun p => streq p (lettered lower c (c :: loc) i) || streq p (direct (c :: loc) j))%bool. split; [now rewrite streq_refl|].
  apply C86_locale; [intros k [<-|[<-|[]]]; assumption|assumption|]. left.
  exists [i], j, []. split; [reflexivity|]. split; [reflexivity|]. split; [rewrite streq_refl; apply orb_true_r|].
  intros k [<-|[]]. apply orb_false_iff. split.
  - destruct (streq_spec (direct (c :: loc) i) (lettered lower c (c :: loc) i)) as [E|]; [|reflexivity]. exfalso. apply Nd.
    unfold direct, lettered in E. apply app_inv_head in E. change (lit "/./" ++ file_of (c :: loc)) with ([47%N] ++ lit "." ++ [47%N] ++ file_of (c :: loc)) in E.
    apply app_inv_head in E. rewrite !app_assoc in E. apply app_inv_tail in E. apply app_inj_tail in E as [E _]. congruence.
  - destruct (streq_spec (direct (c :: loc) i) (direct (c :: loc) j)) as [E|]; [|reflexivity]. exfalso. apply Nij.
    unfold direct in E. now apply app_inv_tail in E.
Qed.

(** * The hypotheses are met *)
Definition ex_dir : dir := Dir [lit "root.xml"; lit "notes"] [(lit "z", Dir [lit "za.xml"] []); (lit "a", Dir [lit "aa.xml"; lit "a.xml"] [])].
Definition ex_dir' : dir := Dir [lit "notes"; lit "root.xml"] [(lit "a", Dir [lit "a.xml"; lit "aa.xml"] []); (lit "z", Dir [lit "za.xml"] [])].
Lemma plain_dec n : (match n with [] => false | _ => true end && negb (existsb (N.eqb 47) n))%bool = true -> plain_name n.
Proof.
  intro H. apply andb_true_iff in H as [A B]. split; [intros ->; discriminate|]. intro Hin. apply negb_true_iff in B.
  assert (existsb (N.eqb 47) n = true) by (apply existsb_exists; exists 47%N; split; [assumption|reflexivity]). congruence.
Qed.
Lemma plain_all l : forallb (fun n => match n with [] => false | _ => true end && negb (existsb (N.eqb 47) n))%bool l = true -> forall n, In n l -> plain_name n.
Proof. intros H n Hn. rewrite forallb_forall in H. now apply plain_dec, H. Qed.
Lemma nodup_dec l : (fix f (l : list pystr) := match l with [] => true | x :: l' => negb (existsb (streq x) l') && f l' end)%bool l = true -> NoDup l.
Proof.
  induction l as [|x l IH]; intro H; [constructor|]. apply andb_true_iff in H as [A B]. constructor; [|now apply IH].
  intro Hin. apply negb_true_iff in A. assert (existsb (streq x) l = true) by (apply existsb_exists; exists x; split; [assumption|apply streq_refl]). congruence.
Qed.
Example C86_met : is_root (lit "sldr") (lit "sldr/") /\ is_root (lit "sldr") (lit "sldr") /\
  plain_dir ex_dir /\ distinct_dir ex_dir /\
  iterate_files (lit "sldr/") (lit ".xml") (Some ex_dir) = [lit "sldr/a/a.xml"; lit "sldr/a/aa.xml"; lit "sldr/root.xml"; lit "sldr/z/za.xml"] /\
  iterate_files (lit "sldr") (lit ".xml") (Some ex_dir') = iterate_files (lit "sldr/") (lit ".xml") (Some ex_dir).
Proof.
  split; [left; reflexivity|]. split.
  { right. split; [reflexivity|]. split; [discriminate|]. intros s E. change (lit "sldr") with (lit "sld" ++ [114%N]) in E.
    apply app_inj_tail in E as [_ E]. discriminate. }
  assert (forall files, forallb (fun n => match n with [] => false | _ => true end && negb (existsb (N.eqb 47) n))%bool files = true ->
    plain_dir (Dir files [])) as Pl by (intros files H; constructor; [now apply plain_all|intros n d []]).
  assert (forall files, NoDup files -> distinct_dir (Dir files [])) as Di by (intros files H; constructor; [assumption|constructor|intros n d []]).
  split; [|split; [|split; vm_compute; reflexivity]].
  - constructor; [apply plain_all; reflexivity|]. intros n d [E|[E|[]]]; injection E as <- <-; (split; [apply plain_dec; reflexivity|apply Pl; reflexivity]).
  - constructor; [apply nodup_dec; reflexivity|apply nodup_dec; reflexivity|]. intros n d [E|[E|[]]]; injection E as <- <-; apply Di, nodup_dec; reflexivity.
Qed.
Definition ex_low (c : N) : pystr := [c].
Example C86_met_locale : proper_root (lit "d1") /\ proper_letter ex_low 97%N /\ ex_low 97%N <> lit "." /\
  getldml ex_low (fun p => existsb (streq p) [lit "d1/a/aa_Latn.xml"; lit "d2/a/aa_Latn.xml"]) (lit "aa-Latn") [lit "d1"; lit "d2"]
  = Ok (Some (lit "d1/a/aa_Latn.xml")).
Proof.
  split; [|split; [|split]].
  - split; [discriminate|]. intros s E. change (lit "d1") with ([100%N] ++ [49%N]) in E. apply app_inj_tail in E as [_ E]. discriminate.
  - repeat split; try discriminate. intros [H|[]]. discriminate.
  - discriminate.
  - vm_compute. reflexivity.
Qed.
