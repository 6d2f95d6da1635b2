(** C21: normalise only reorders siblings and tidies text. *)
From Coq Require Import String.
From Verif Require Import Py PyFacts M_LdmlBase M_Collation M_Serialize M_Normalise T_LdmlHash T_Collation2.
Local Open Scope list_scope.
Local Open Scope nat_scope.

(** ** Text *)
Definition blanks (s : pystr) : Prop := Forall (fun c => is_blank c = true) s.
Lemma is_blank_spec c : is_blank c = true <-> c = 32%N \/ c = 9%N.
Proof.
  unfold is_blank. rewrite orb_true_iff, !N.eqb_eq. tauto.
Qed.
Lemma blank_not_nl c : is_blank c = true -> N.eqb c 10 = false.
Proof. rewrite is_blank_spec. now intros [-> | ->]. Qed.
Lemma tidy_from_blanks p : blanks p -> forall q s, tidy_from q false (p ++ s) = tidy_from (q ++ p) false s.
Proof.
  induction 1 as [|c p Hc Hp IH]; intros q s; [now rewrite app_nil_r|].
  cbn [app tidy_from]. rewrite (blank_not_nl c Hc), Hc, IH. now rewrite <- app_assoc.
Qed.
Lemma tidy_from_idem s :
  (forall p, blanks p -> tidy_from [] false (tidy_from p false s) = tidy_from p false s)
  /\ tidy_from [] true (tidy_from [] true s) = tidy_from [] true s.
Proof.
  induction s as [|c s [IHf IHt]]; cbn [tidy_from].
  - split; [|reflexivity]. intros p Hp. rewrite <- (app_nil_r p) at 1.
    rewrite tidy_from_blanks by assumption. reflexivity.
  - destruct (N.eqb_spec c 10) as [->|Hn].
    + split; [intros p Hp|]; cbn [tidy_from]; change (N.eqb 10 10) with true; cbn iota; now rewrite IHt.
    + destruct (is_blank c) eqn:Hb.
      * split; [|assumption]. intros p Hp. apply IHf. apply Forall_app. split; [assumption|].
        constructor; [assumption|constructor].
      * assert (forall u, tidy_from [] false (c :: u) = c :: tidy_from [] false u) as K.
        { intro u. cbn [tidy_from]. destruct (N.eqb_spec c 10); [contradiction|]. now rewrite Hb. }
        split.
        -- intros p Hp. rewrite tidy_from_blanks by assumption. cbn [app tidy_from].
           destruct (N.eqb_spec c 10); [contradiction|]. rewrite Hb. rewrite (IHf [] ltac:(constructor)).
           reflexivity.
        -- cbn [app tidy_from]. destruct (N.eqb_spec c 10); [contradiction|]. rewrite Hb.
           cbn [app]. rewrite (IHf [] ltac:(constructor)). reflexivity.
Qed.
Lemma tidy_idem s : tidy (tidy s) = tidy s.
Proof. apply (proj1 (tidy_from_idem s) []). constructor. Qed.

(** stripped: no white space at either end *)
Definition stripped (ws : N -> bool) (s : pystr) : Prop :=
  s = [] \/ ((exists x m, s = x :: m /\ ws x = false) /\ (exists y m, s = m ++ [y] /\ ws y = false)).
Lemma lstrip_spec ws s : exists p, s = p ++ lstrip ws s /\ forallb ws p = true
  /\ (lstrip ws s = [] \/ exists x m, lstrip ws s = x :: m /\ ws x = false).
Proof.
  induction s as [|c s (p & E & Hp & IH)]; [exists []; cbn; auto|]. cbn [lstrip].
  destruct (ws c) eqn:Hc.
  - exists (c :: p). cbn. rewrite Hc, Hp. split; [now rewrite <- E|]. auto.
  - exists []. cbn. split; [reflexivity|]. split; [reflexivity|]. right. eauto.
Qed.
Lemma strip_spec ws s : exists p q, s = p ++ strip ws s ++ q /\ forallb ws p = true /\ forallb ws q = true
  /\ stripped ws (strip ws s).
Proof.
  unfold strip. destruct (lstrip_spec ws s) as (p & E & Hp & C).
  destruct (lstrip_spec ws (rev (lstrip ws s))) as (q & E2 & Hq & C2).
  set (l := lstrip ws s) in *. set (r := lstrip ws (rev l)) in *.
  assert (l = rev r ++ rev q) as El.
  { rewrite <- rev_app_distr, <- E2. now rewrite rev_involutive. }
  exists p, (rev q). split; [now rewrite <- El|]. split; [assumption|]. split; [now apply rev_ws|].
  destruct C2 as [C2|(y & m & Er & Hy)].
  - left. now rewrite C2.
  - right. split.
    + destruct C as [C|(x & m' & Ex & Hx)].
      * rewrite C in El. destruct (rev r) as [|z zs] eqn:Ez; [|discriminate].
        rewrite Er in Ez. cbn in Ez. destruct (rev m); discriminate.
      * rewrite El in Ex. rewrite Er in *. cbn [rev] in *.
        destruct (rev m) as [|z zs] eqn:Em; cbn in *.
        -- injection Ex as -> _. exists x, []. auto.
        -- injection Ex as -> _. exists x, (zs ++ [y]). auto.
    + exists y, (rev m). rewrite Er. auto.
Qed.
Lemma strip_stripped ws s : stripped ws s -> strip ws s = s.
Proof.
  intros [->|[H1 H2]]; [reflexivity|].
  rewrite <- (app_nil_r s) at 1. rewrite <- (app_nil_l (s ++ [])).
  apply strip_trim; auto.
Qed.
Lemma strip_idem ws s : strip ws (strip ws s) = strip ws s.
Proof. apply strip_stripped. destruct (strip_spec ws s) as (p & q & _ & _ & _ & H). exact H. Qed.

Section Clean.
  Variable ws : N -> bool.
  Hypothesis ws_blank : ws 32%N = true /\ ws 9%N = true /\ ws 10%N = true.

  Lemma nonws_plain c : ws c = false -> N.eqb c 10 = false /\ is_blank c = false.
  Proof.
    intro H. destruct ws_blank as (H1 & H2 & H3). split.
    - destruct (N.eqb_spec c 10); congruence.
    - destruct (is_blank c) eqn:E; [|reflexivity]. apply is_blank_spec in E as [-> | ->]; congruence.
  Qed.
  Lemma tidy_from_last s y : ws y = false -> forall p sk, exists m, tidy_from p sk (s ++ [y]) = m ++ [y].
  Proof.
    intro Hy. destruct (nonws_plain y Hy) as (H10 & Hb).
    induction s as [|c s IH]; intros p sk; cbn [app tidy_from].
    - rewrite H10, Hb. exists p. reflexivity.
    - destruct (N.eqb c 10).
      + destruct (IH [] true) as (m & ->). exists (10%N :: m). reflexivity.
      + destruct (is_blank c); [destruct sk; apply IH|].
        destruct (IH [] false) as (m & ->). exists (p ++ c :: m). now rewrite <- app_assoc.
  Qed.
  Lemma tidy_stripped s : stripped ws s -> stripped ws (tidy s).
  Proof.
    intros [->|[(x & m & E & Hx) (y & m' & E' & Hy)]]; [now left|]. right. split.
    - exists x, (tidy m). split; [|assumption]. rewrite E. unfold tidy. cbn [tidy_from].
      destruct (nonws_plain x Hx) as (-> & ->). reflexivity.
    - unfold tidy. rewrite E'. destruct (tidy_from_last m' y Hy [] false) as (m2 & ->). eauto.
  Qed.
  Lemma clean_idem s : clean ws (clean ws s) = clean ws s.
  Proof.
    unfold clean. rewrite (strip_stripped ws (tidy (strip ws s))).
    - apply tidy_idem.
    - apply tidy_stripped. destruct (strip_spec ws s) as (p & q & _ & _ & _ & H). exact H.
  Qed.
  Lemma clean_text_idem t : clean_text ws (clean_text ws t) = clean_text ws t.
  Proof.
    destruct t as [[|c s]|]; cbn [clean_text]; try reflexivity.
    destruct (clean ws (c :: s)) as [|d u] eqn:E; [reflexivity|].
    cbn [clean_text]. rewrite <- E. now rewrite clean_idem.
  Qed.
End Clean.

(** ** Order *)
Lemma lcmp_str_antisym a b : lcmp strcmp b a = CompOpp (lcmp strcmp a b).
Proof. apply lcmp_antisym; [apply strcmp_antisym]. Qed.
Lemma key_leb_total a b : key_leb a b = true \/ key_leb b a = true.
Proof.
  unfold key_leb. rewrite (Nat.compare_antisym (fst a) (fst b)).
  destruct (Nat.compare (fst a) (fst b)); cbn [CompOpp]; auto.
  rewrite (lcmp_str_antisym (snd a) (snd b)).
  destruct (lcmp strcmp (snd a) (snd b)); cbn; auto.
Qed.
Lemma lcmp_str_trans a b c : lcmp strcmp a b <> Gt -> lcmp strcmp b c <> Gt -> lcmp strcmp a c <> Gt.
Proof.
  intros H1 H2.
  destruct (lcmp strcmp a b) eqn:E1; [|clear H1|congruence].
  - apply (lcmp_eq strcmp strcmp_eq) in E1. now subst.
  - destruct (lcmp strcmp b c) eqn:E2; [|clear H2|congruence].
    + apply (lcmp_eq strcmp strcmp_eq) in E2. subst. now rewrite E1.
    + now rewrite (lcmp_trans strcmp strcmp_eq strcmp_trans _ _ _ E1 E2).
Qed.
Lemma key_leb_trans a b c : key_leb a b = true -> key_leb b c = true -> key_leb a c = true.
Proof.
  unfold key_leb.
  destruct (Nat.compare_spec (fst a) (fst b)), (Nat.compare_spec (fst b) (fst c));
    intros H1 H2; try discriminate.
  - rewrite H, H0, Nat.compare_refl.
    assert (lcmp strcmp (snd a) (snd c) <> Gt) as K.
    { apply (lcmp_str_trans _ (snd b)); intro E; rewrite E in *; discriminate. }
    destruct (lcmp strcmp (snd a) (snd c)); congruence.
  - rewrite H. now rewrite (proj2 (Nat.compare_lt_iff _ _) H0).
  - rewrite <- H0. now rewrite (proj2 (Nat.compare_lt_iff _ _) H).
  - rewrite (proj2 (Nat.compare_lt_iff _ _) (Nat.lt_trans _ _ _ H H0)). reflexivity.
Qed.

Section C21.
  Variable ws : N -> bool.
  Hypothesis ws_blank : ws 32%N = true /\ ws 9%N = true /\ ws 10%N = true.
  Variable lower : pystr -> pystr.
  Variable m : meta.
  Notation norm := (normalise ws lower m).

  (** Specification. [rank parent x]: the place the DTD gives to [x] among the children of
      [parent]. *)
  Definition rank (parent : pystr) (x : node) : nat :=
    match dget streq (m_elord m) parent with
    | Some order => match dget streq order (ntag x) with Some i => i | None => m_maxels m end
    | None => m_maxels m
    end.
  Definition in_order (parent : pystr) (x y : node) : Prop :=
    rank parent x < rank parent y
    \/ rank parent x = rank parent y /\ strcmp (ntag x) (ntag y) <> Gt.

  (** [reordered n n']: n' has the tag and attributes of n, its text tidied, and the children
      of n, each reordered in the same way, in DTD order. *)
  Inductive reordered : node -> node -> Prop :=
  | Reordered t a x kids mid kids' :
      Forall2 reordered kids mid -> Permutation mid kids' ->
      StronglySorted (in_order t) kids' ->
      reordered (Node t a x kids) (Node t a (clean_text ws x) kids').

  Lemma norm_tag n : ntag (norm n) = ntag n.
  Proof. destruct n; reflexivity. Qed.
  Lemma norm_attrs n : nattrs (norm n) = nattrs n.
  Proof. destruct n; reflexivity. Qed.
  Lemma norm_keyel p n : keyel lower m p (norm n) = keyel lower m p n.
  Proof. unfold keyel. now rewrite norm_tag, norm_attrs. Qed.

  Lemma el_leb_total p x y : el_leb lower m p x y = true \/ el_leb lower m p y x = true.
  Proof. apply key_leb_total. Qed.
  Lemma el_leb_trans p x y z :
    el_leb lower m p x y = true -> el_leb lower m p y z = true -> el_leb lower m p x z = true.
  Proof. apply key_leb_trans. Qed.
  Lemma el_leb_in_order p x y : el_leb lower m p x y = true -> in_order p x y.
  Proof.
    unfold el_leb, key_leb, keyel, in_order. cbn [fst snd].
    change (el_order m p (ntag x)) with (rank p x). change (el_order m p (ntag y)) with (rank p y).
    destruct (Nat.compare_spec (rank p x) (rank p y)); intro H0; auto; [|discriminate].
    right. split; [assumption|]. cbn [lcmp] in H0.
    destruct (strcmp (ntag x) (ntag y)); congruence.
  Qed.

  (** C21: normalise reorders children into DTD order, at every level, and changes nothing
      else but the white space of texts. *)
  Theorem C21_reorders n : reordered n (norm n).
  Proof.
    induction n as [t a x kids IH] using node_ind'. cbn [normalise].
    apply (Reordered t a x kids (map norm kids)).
    - induction IH; cbn; constructor; auto.
    - apply isort_perm.
    - pose proof (isort_sorted (el_leb lower m t) (el_leb_total t) (el_leb_trans t) (map norm kids)) as S.
      induction S as [|y l S IHS F]; constructor; auto.
      eapply Forall_impl; [|exact F]. intros z. apply el_leb_in_order.
  Qed.

  (** children that the order does not tell apart keep their order *)
  Theorem C21_stable t a x kids key :
    filter (fun c => if Nat.eq_dec (fst (keyel lower m t c)) (fst key)
                     then if list_eq_dec (list_eq_dec N.eq_dec) (snd (keyel lower m t c)) (snd key)
                          then true else false else false)
      (nkids (norm (Node t a x kids)))
    = map norm (filter (fun c => if Nat.eq_dec (fst (keyel lower m t c)) (fst key)
                     then if list_eq_dec (list_eq_dec N.eq_dec) (snd (keyel lower m t c)) (snd key)
                          then true else false else false) kids).
  Proof.
    cbn [normalise nkids]. rewrite isort_stable.
    - induction kids as [|k kids IH]; [reflexivity|]. cbn [map filter].
      rewrite norm_keyel. rewrite IH.
      destruct (Nat.eq_dec _ _); [|reflexivity]. destruct (list_eq_dec _ _ _); reflexivity.
    - intros y z Hy Hz. unfold el_leb.
      destruct (Nat.eq_dec (fst (keyel lower m t y)) _) as [E1|]; [|discriminate].
      destruct (list_eq_dec _ (snd (keyel lower m t y)) _) as [E2|]; [|discriminate].
      destruct (Nat.eq_dec (fst (keyel lower m t z)) _) as [E3|]; [|discriminate].
      destruct (list_eq_dec _ (snd (keyel lower m t z)) _) as [E4|]; [|discriminate].
      unfold key_leb. rewrite E1, E2, E3, E4, Nat.compare_refl.
      now rewrite (proj2 (lcmp_eq strcmp strcmp_eq _ _) eq_refl).
  Qed.

  (** a second normalise changes nothing *)
  Theorem C21_idempotent n : norm (norm n) = norm n.
  Proof.
    induction n as [t a x kids IH] using node_ind'. cbn [normalise]. f_equal.
    - now apply clean_text_idem.
    - assert (map norm (isort (el_leb lower m t) (map norm kids)) = isort (el_leb lower m t) (map norm kids)) as E.
      { assert (Forall (fun k => norm k = k) (map norm kids)) as F.
        { induction IH; cbn; constructor; auto. }
        assert (Forall (fun k => norm k = k) (isort (el_leb lower m t) (map norm kids))) as F'.
        { rewrite Forall_forall in *. intros k Hk. apply F. now apply in_isort in Hk. }
        induction F' as [|k l Hk F' IHF]; [reflexivity|]. cbn. now rewrite Hk, IHF. }
      rewrite E. apply isort_idem; [apply el_leb_total|apply el_leb_trans].
  Qed.

  (** Two documents that differ only in the order of siblings normalise to the same document,
      when no two siblings have the same key. *)
  Inductive shuffled : node -> node -> Prop :=
  | Shuffled t a x kids mid kids' :
      Forall2 shuffled kids mid -> Permutation mid kids' ->
      shuffled (Node t a x kids) (Node t a x kids').
  Inductive distinct_keys : node -> Prop :=
  | Distinct t a x kids :
      NoDup (map (keyel lower m t) kids) -> Forall distinct_keys kids ->
      distinct_keys (Node t a x kids).

  Lemma NoDup_map_inj {A B} (f : A -> B) l x y :
    NoDup (map f l) -> In x l -> In y l -> f x = f y -> x = y.
  Proof.
    induction l as [|z l IH]; [intros _ []|]. cbn. intros Nd Hx Hy E.
    inversion Nd as [|? ? Hn Nd']; subst.
    destruct Hx as [->|Hx], Hy as [->|Hy]; auto.
    - exfalso. apply Hn. rewrite E. now apply in_map.
    - exfalso. apply Hn. rewrite <- E. now apply in_map.
  Qed.
  Theorem C21_canonical n : forall n', distinct_keys n -> shuffled n n' -> norm n = norm n'.
  Proof.
    induction n as [t a x kids IH] using node_ind'. intros n' D S.
    inversion D as [? ? ? ? Nd F]; subst. inversion S as [? ? ? ? mid kids' F2 P]; subst.
    cbn [normalise]. f_equal.
    assert (map norm kids = map norm mid) as E.
    { clear Nd P S D. induction F2; [reflexivity|]. cbn. inversion IH; inversion F; subst. f_equal; auto. }
    rewrite E. apply isort_perm_eq; [apply el_leb_total|apply el_leb_trans| |now apply Permutation_map].
    rewrite <- E.
    assert (NoDup (map (keyel lower m t) (map norm kids))) as Nd'.
    { rewrite map_map. erewrite map_ext; [exact Nd|]. intro. apply norm_keyel. }
    intros y z Hy Hz L1 L2. apply (NoDup_map_inj _ _ _ _ Nd' Hy Hz).
    unfold el_leb, key_leb in L1, L2.
    rewrite (Nat.compare_antisym (fst (keyel lower m t y)) (fst (keyel lower m t z))) in L2.
    destruct (Nat.compare_spec (fst (keyel lower m t y)) (fst (keyel lower m t z))) as [E1| |]; try discriminate.
    cbn [CompOpp] in L2. rewrite (lcmp_str_antisym (snd (keyel lower m t y))) in L2.
    destruct (lcmp strcmp (snd (keyel lower m t y)) (snd (keyel lower m t z))) eqn:E2; try discriminate.
    apply (lcmp_eq strcmp strcmp_eq) in E2.
    destruct (keyel lower m t y), (keyel lower m t z). cbn in *. congruence.
  Qed.

  (** normalised text: no white space at the ends of a text and no blank next to a newline *)
  Theorem C21_text s : stripped ws (clean ws s)
    /\ (forall a b c, clean ws s = a ++ c :: 10%N :: b -> is_blank c = false)
    /\ (forall a b c, clean ws s = a ++ 10%N :: c :: b -> is_blank c = false).
  Proof.
    unfold clean. split; [|].
    - apply tidy_stripped; [assumption|]. destruct (strip_spec ws s) as (p & q & _ & _ & _ & H). exact H.
    - set (u := strip ws s). clearbody u. clear.
      assert (forall u p sk, (sk = true -> p = []) -> blanks p ->
        (forall a b c, tidy_from p sk u = a ++ c :: 10%N :: b -> is_blank c = false)
        /\ (forall a b c, tidy_from p sk u = a ++ 10%N :: c :: b -> is_blank c = false)
        /\ (sk = true -> forall c b, tidy_from p sk u = c :: b -> is_blank c = false)
        /\ (forall c b, p = [] -> tidy_from p sk u = c :: b -> is_blank c = false \/ u <> [])
        ) as K.
      { clear u. induction u as [|d u IH]; intros p sk Hsk Hp; cbn [tidy_from].
        - unfold blanks in Hp. rewrite Forall_forall in Hp. repeat split.
          + intros a b c ->. specialize (Hp 10%N). exfalso.
            assert (In 10%N (a ++ c :: 10%N :: b)) as Hin by (apply in_app_iff; cbn; tauto).
            specialize (Hp Hin). discriminate.
          + intros a b c ->. exfalso.
            assert (In 10%N (a ++ 10%N :: c :: b)) as Hin by (apply in_app_iff; cbn; tauto).
            specialize (Hp _ Hin). discriminate.
          + intros E c b. rewrite (Hsk E). discriminate.
          + intros c b ->. discriminate.
        - destruct (N.eqb_spec d 10) as [->|Hd].
          + destruct (IH [] true (fun _ => eq_refl) (Forall_nil _)) as (K1 & K2 & K3 & _).
            repeat split.
            * intros [|a0 a] b c E; cbn in E.
              -- injection E as <- E. reflexivity.
              -- injection E as _ E. eauto.
            * intros [|a0 a] b c E; cbn in E.
              -- injection E as E. eauto.
              -- injection E as _ E. eauto.
            * intros _ c b E. injection E as <- _. reflexivity.
            * intros. right. discriminate.
          + destruct (is_blank d) eqn:Hb.
            * destruct sk.
              -- destruct (IH [] true (fun _ => eq_refl) (Forall_nil _)) as (K1 & K2 & K3 & _).
                 repeat split; eauto; intros; right; discriminate.
              -- assert (blanks (p ++ [d])) as Hpd.
                 { apply Forall_app. split; [assumption|]. constructor; [assumption|constructor]. }
                 destruct (IH (p ++ [d]) false ltac:(discriminate) Hpd) as (K1 & K2 & _ & _).
                 repeat split; eauto; try discriminate; intros; right; discriminate.
            * destruct (IH [] false ltac:(discriminate) (Forall_nil _)) as (K1 & K2 & _ & _).
              assert (forall a p, Forall (fun c => is_blank c = true) p -> forall (r : pystr) x b,
                 p ++ d :: r = a ++ x :: b ->
                 (exists p2, p = a ++ x :: p2 /\ b = p2 ++ d :: r)
                 \/ (a = p /\ x = d /\ b = r) \/ (exists a2, r = a2 ++ x :: b)) as Sp.
              { clear. induction a as [|a0 a IHa]; intros p Hp r x b E.
                - destruct Hp as [|c p Hc Hp]; cbn in E; injection E as -> E.
                  + right. left. auto.
                  + left. exists p. auto.
                - destruct Hp as [|c p Hc Hp]; cbn in E; injection E as -> E.
                  + right. right. now exists a.
                  + destruct (IHa p Hp r x b E) as [(p2 & -> & ->)|[(-> & -> & ->)|(a2 & ->)]].
                    * left. exists p2. auto.
                    * right. left. auto.
                    * right. right. now exists a2. }
              repeat split.
              -- intros a b c E. destruct (Sp a p Hp _ _ _ E) as [(p2 & E1 & E2)|[(E1 & -> & E2)|(a2 & E1)]].
                 ++ destruct p2 as [|y p2]; cbn in E2; injection E2 as E2 _; [congruence|].
                    subst y. unfold blanks in Hp. rewrite E1, Forall_forall in Hp.
                    specialize (Hp 10%N). exfalso. 
                    assert (is_blank 10 = true) by (apply Hp, in_app_iff; cbn; tauto). discriminate.
                 ++ assumption.
                 ++ eauto.
              -- intros a b c E. destruct (Sp a p Hp _ _ _ E) as [(p2 & E1 & E2)|[(E1 & E0 & E2)|(a2 & E1)]].
                 ++ unfold blanks in Hp. rewrite E1, Forall_forall in Hp.
                    specialize (Hp 10%N). exfalso.
                    assert (is_blank 10 = true) by (apply Hp, in_app_iff; cbn; tauto). discriminate.
                 ++ congruence.
                 ++ eauto.
              -- intros E c b. rewrite (Hsk E). cbn. intro E2. injection E2 as <- _. assumption.
              -- intros. right. discriminate. }
      destruct (K u [] false ltac:(discriminate) (Forall_nil _)) as (K1 & K2 & _). split; assumption.
  Qed.
End C21.

Definition ascii_ws (c : N) : bool := inchars c [32; 9; 10; 11; 12; 13]%N.
Definition ex_order_meta : meta :=
  {| m_keys := []; m_nonkey := []; m_key := []; m_attord := []; m_maxats := 9;
     m_elord := [(lit "ldml", [(lit "identity", 1); (lit "layout", 2)])]; m_maxels := 9;
     m_attvals := []; m_serial := []; m_blocks := [] |}.
Example C21_example :
  let n := Node (lit "ldml") [] None
             [Node (lit "zz") [] None []; Node (lit "layout") [] (Some (lit " a b ")) [];
              Node (lit "identity") [] None []] in
  normalise ascii_ws (fun s => s) ex_order_meta n
  = Node (lit "ldml") [] None
      [Node (lit "identity") [] None []; Node (lit "layout") [] (Some (lit "a b")) [];
       Node (lit "zz") [] None []]
  /\ distinct_keys (fun s => s) ex_order_meta n
  /\ (ascii_ws 32%N = true /\ ascii_ws 9%N = true /\ ascii_ws 10%N = true).
Proof.
  split; [reflexivity|]. split; [|auto]. constructor.
  - cbn. repeat constructor; cbn; intuition discriminate.
  - repeat constructor.
Qed.
