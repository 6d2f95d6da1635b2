(** C63, continued: a document that is saved and loaded again is the same. *)
From Coq Require Import String.
From Verif Require Import Py PyFacts M_LdmlBase M_TreeBuilder M_Serialize M_Normalise S_Xml M_Drafts M_WriteDrafts
  T_LdmlBase T_LdmlHash T_Collation2 T_TreeBuilder T_Normalise P_Serialize T_Serialize T_Drafts T_Promote T_WriteDrafts
  T_WriteDrafts2.
Local Open Scope list_scope.
Local Open Scope nat_scope.

Section Stable.
  Variable ws : N -> bool.
  Variable lower : pystr -> pystr.
  Variable hasher : pystr -> Z.
  Variable m : meta.
  Variable dd silid : pystr.
  Notation load := (load ws lower hasher m dd true).

  (** Documents that loading and saving keep as they are:
      - no draft that saving would take off: neither the default draft nor the draft of an
        element with children (as in [draft_dropped]);
      - no alt on an element with children (C63_alt_grows_refuted);
      - no serial elements;
      - no two siblings that sort equal, and no two siblings with the same key and alt (loading
        keeps only one of these). *)
  Inductive stable : node -> Prop :=
  | Stable t a x k :
      NoDup (map fst a) ->
      (forall d, In (lit "draft", d) a -> d <> [] -> t <> silid -> k = [] /\ d <> dd) ->
      (forall v, In (lit "alt", v) a -> k <> [] -> v = []) ->
      Forall (fun c => ~ In (ntag c) (m_serial m)) k ->
      NoDup (map (keyel lower m t) k) ->
      NoDup (map (fun c => (lah (load c), dget streq (nattrs c) (lit "alt"))) k) ->
      Forall stable k ->
      stable (Node t a x k).

  Hypothesis ws_blank : ws 32%N = true /\ ws 9%N = true /\ ws 10%N = true.
  Hypothesis Hdd : In dd alldrafts.

  (** ** Packing only regroups *)
  Definition ungroup (p : lnode) : list lnode :=
    set_alts p None :: match lalts p with Some al => map snd al | None => [] end.
  Definition kid (c : lnode) : Z * option pystr := (lah c, lget c (lit "alt")).

  Lemma NoDup_map_fst {A B} (f : A -> B) l : NoDup (map f l) -> NoDup l.
  Proof. apply NoDup_map_inv. Qed.
  Lemma nth_lah_NoDup (l : list lnode) :
    (forall i j x y, nth_error l i = Some x -> nth_error l j = Some y -> lah x = lah y -> i = j) ->
    NoDup (map lah l).
  Proof.
    intro H. apply NoDup_nth_error. intros i j Hi E. rewrite map_length in Hi.
    rewrite !nth_error_map in E. destruct (nth_error l i) as [x|] eqn:Ex.
    2:{ apply nth_error_None in Ex. lia. }
    destruct (nth_error l j) as [y|] eqn:Ey; [|discriminate]. cbn in E. injection E as E. eauto.
  Qed.
  Lemma NoDup_two {A} (a b : list A) : NoDup a -> (forall x, In x a -> ~ In x b) -> NoDup b -> NoDup (a ++ b).
  Proof.
    induction a as [|x a IH]; cbn [app]; intros Na H Nb; [exact Nb|]. inversion Na as [|y r N1 N2]. subst. constructor.
    - intro Hx. apply in_app_iff in Hx as [Hx|Hx]; [contradiction|]. apply (H x); [now left|exact Hx].
    - apply IH; auto. intros z Hz. apply H. now right.
  Qed.
  Lemma NoDup_groups (l : list lnode) (g : lnode -> list lnode) :
    NoDup (map lah l) -> (forall p, In p l -> NoDup (g p)) ->
    (forall p x, In p l -> In x (g p) -> lah x = lah p) -> NoDup (concat (map g l)).
  Proof.
    induction l as [|p l IH]; cbn [map concat]; intros N G L; [constructor|].
    inversion N as [|h r N1 N2]. subst. apply NoDup_two.
    - apply G. now left.
    - intros x Hx Hy. apply in_concat in Hy as (gq & Hg & Hy). apply in_map_iff in Hg as (q & <- & Hq).
      apply N1. rewrite <- (L p x), (L q x); auto; [now apply in_map|now right|now left].
    - apply IH; auto; intros; [apply G|apply L]; auto; now right.
  Qed.

  Lemma pack_regroups cs :
    Forall (fun c => lalts c = None) cs -> Forall (fun c => ~ In (ltag c) (m_serial m)) cs ->
    NoDup (map kid cs) ->
    Permutation cs (concat (map ungroup (pack_kids m dd cs))).
  Proof.
    intros HA HS HK.
    assert (forall c c', In c cs -> In c' cs -> lah c = lah c' -> lget c (lit "alt") = lget c' (lit "alt") -> c = c') as Inj.
    { intros c c' Hc Hc' E1 E2. apply (NoDup_map_inj kid cs); auto. unfold kid. congruence. }
    rewrite Forall_forall in HA, HS.
    (* the shape of what is kept *)
    assert (forall o, In o (pack_kids m dd cs) ->
      exists c al, In c cs /\ o = set_alts c (Some al) /\ NoDup (dkeys al) /\
        forall a x, In (a, x) al -> In x cs /\ lah x = lah c /\ lget x (lit "alt") = Some a /\ lget c (lit "alt") <> Some a) as SH.
    { intros o Ho. destruct (C23_packing m dd cs Hdd) as (keep & prim & [P1 P2 P3 P4]).
      apply In_nth_error in Ho as [i Hi]. destruct (Forall2_nth_r _ _ _ _ _ _ _ P4 Hi) as (k & Hk & c & Hc & Hcase).
      assert (In c cs) as Hcs by (eapply nth_error_In; eassumption).
      assert (In k keep) as Hin by (eapply nth_error_In; eassumption).
      apply P2 in Hin as (c' & Hc' & [Hs|Hp]); [exfalso|].
      { apply (HS c'); [eapply nth_error_In; eassumption|assumption]. }
      assert (c' = c) by congruence. subst c'.
      destruct Hcase as [[Hn _]|[_ (al & -> & N & F)]]; [contradiction|].
      exists c, al. split; [assumption|]. split; [reflexivity|]. split; [assumption|].
      intros a x Hx. apply F in Hx as (j & [Hj _] & E1 & E2 & E3).
      split; [eapply nth_error_In; eassumption|auto]. }
    assert (forall c, In c cs -> set_alts c None = c) as Hnone.
    { intros c Hc. specialize (HA c Hc). destruct c as [t a x h c0 l k]. cbn in *. now subst. }
    assert (forall c al, set_alts (set_alts c (Some al)) None = set_alts c None) as Htwice by (now intros []).
    apply NoDup_Permutation.
    - eapply NoDup_map_fst. exact HK.
    - apply NoDup_groups.
      + apply nth_lah_NoDup. intros i j x y Hx Hy E. eapply C23_one_per_key; eauto.
      + intros p Hp. destruct (SH p Hp) as (c & al & Hc & -> & N & F). unfold ungroup.
        rewrite Htwice, Hnone by assumption. replace (lalts (set_alts c (Some al))) with (Some al) by (now destruct c).
        constructor.
        * intro H. apply in_map_iff in H as ([a x] & Ex & H). cbn [snd] in Ex. subst x.
          destruct (F _ _ H) as (_ & _ & E1 & E2). congruence.
        * clear - N F. induction al as [|[a x] al IH]; cbn [map snd]; constructor.
          -- intro H. apply in_map_iff in H as ([b y] & Ex & H). cbn [snd] in Ex. subst y.
             destruct (F a x (or_introl eq_refl)) as (_ & _ & E1 & _).
             destruct (F b x (or_intror H)) as (_ & _ & E2 & _).
             assert (a = b) by congruence. subst b. unfold dkeys in N. cbn [map fst] in N. inversion N as [|? ? N1 N2]; subst.
             apply N1. now apply (in_map fst) in H.
          -- apply IH; [now inversion N|]. intros b y H. apply F. now right.
      + intros p x Hp Hx. destruct (SH p Hp) as (c & al & Hc & -> & N & F). unfold ungroup in Hx.
        rewrite Htwice, Hnone in Hx by assumption. replace (lalts (set_alts c (Some al))) with (Some al) in Hx by (now destruct c).
        replace (lah (set_alts c (Some al))) with (lah c) by (now destruct c).
        destruct Hx as [<-|Hx]; [reflexivity|]. apply in_map_iff in Hx as ([a y] & <- & H). apply (F _ _ H).
    - intro x. split.
      + intro Hx. destruct (C23_nothing_lost m dd cs x Hdd Hx) as (o & Ho & Eo & Hcase).
        apply in_concat. exists (ungroup o). split; [now apply in_map|].
        destruct (SH o Ho) as (c & al & Hc & -> & N & F). unfold ungroup. rewrite Htwice, Hnone by assumption.
        replace (lalts (set_alts c (Some al))) with (Some al) in * by (now destruct c).
        replace (lah (set_alts c (Some al))) with (lah c) in * by (now destruct c).
        destruct Hcase as [[E _]|(al' & a & y & E1 & E2 & Hy & Hy' & E3 & E4 & _)].
        * left. apply Inj; auto. now destruct c.
        * right. injection E1 as <-. apply in_map_iff. exists (a, y). cbn [snd]. split; [|assumption].
          apply Inj; auto; congruence.
      + intro Hx. apply in_concat in Hx as (g & Hg & Hx). apply in_map_iff in Hg as (o & <- & Ho).
        destruct (SH o Ho) as (c & al & Hc & -> & N & F). unfold ungroup in Hx. rewrite Htwice, Hnone in Hx by assumption.
        replace (lalts (set_alts c (Some al))) with (Some al) in Hx by (now destruct c).
        destruct Hx as [<-|Hx]; [assumption|]. apply in_map_iff in Hx as ([a y] & <- & H). apply (F _ _ H).
  Qed.
  Lemma pack_alts cs o : Forall (fun c => lalts c = None) cs -> In o (pack_kids m dd cs) ->
    forall al, lalts o = Some al -> forall a x, In (a, x) al -> lget x (lit "alt") = Some a.
  Proof.
    intros HA Ho al Hal a x Hx. destruct (C23_packing m dd cs Hdd) as (keep & prim & [P1 P2 P3 P4]).
    apply In_nth_error in Ho as [i Hi]. destruct (Forall2_nth_r _ _ _ _ _ _ _ P4 Hi) as (k & Hk & c & Hc & Hcase).
    destruct Hcase as [[_ ->]|[_ (al' & -> & N & F)]].
    - rewrite Forall_forall in HA. rewrite HA in Hal; [discriminate|]. eapply nth_error_In; eassumption.
    - replace (lalts (set_alts c (Some al'))) with (Some al') in Hal by (now destruct c). injection Hal as ->.
      apply F in Hx as (j & _ & _ & E & _). exact E.
  Qed.

  (** ** What is written for the children *)
  Notation wr := (wr dd silid).
  Definition W (c : lnode) : node := fst (wr None (fresh c)).
  Lemma W_alts c l : W (set_alts c l) = W c.
  Proof. destruct c as [t a x h c0 l0 k]. unfold W. cbn [set_alts fresh]. rewrite !wr_eq. reflexivity. Qed.
  Lemma wr_same_alt c a : lget c (lit "alt") = Some a -> fst (wr (Some a) (fresh c)) = W c.
  Proof.
    destruct c as [t at_ x h c0 l0 k]. unfold W, lget. cbn [lattrs fresh]. intro E. rewrite !wr_eq. cbn zeta. cbn [fst].
    unfold out_attrs, set_alt. now rewrite (dset_id _ _ _ E).
  Qed.
  Lemma group_out p :
    (forall al, lalts p = Some al -> forall a x, In (a, x) al -> lget x (lit "alt") = Some a) ->
    Permutation (map fst (fst (group dd silid [] (fresh p)) :: snd (group dd silid [] (fresh p)))) (map W (ungroup p)).
  Proof.
    intro H. rewrite group_eq. cbn [fst snd map]. unfold ungroup. cbn [map].
    fold (W p). rewrite W_alts. apply perm_skip. rewrite map_map. cbn [fst].
    assert (alist (fresh p) = match lalts p with Some al => map (fun kv => (fst kv, fresh (snd kv))) al | None => [] end) as E.
    { destruct p as [t a x h c l k]. unfold alist. cbn [fresh walts lalts]. destruct l as [l|]; [|reflexivity].
      apply map_ext. now intros []. }
    rewrite E. destruct (lalts p) as [al|]; [|reflexivity]. specialize (H al eq_refl).
    etransitivity; [apply Permutation_map; symmetry; apply isort_perm|].
    rewrite !map_map. cbn [fst snd]. erewrite map_ext_in; [reflexivity|]. intros [a x] Hx. cbn [fst snd alt_text].
    apply wr_same_alt. now apply H.
  Qed.
  Lemma groups_out ps :
    (forall p, In p ps -> forall al, lalts p = Some al -> forall a x, In (a, x) al -> lget x (lit "alt") = Some a) ->
    Permutation
      (map fst (concat (map (fun c => fst (group dd silid [] c) :: snd (group dd silid [] c)) (map fresh ps))))
      (map W (concat (map ungroup ps))).
  Proof.
    induction ps as [|p ps IH]; intro H; [reflexivity|]. cbn [map concat]. rewrite !map_app.
    apply Permutation_app; [apply group_out, H; now left|apply IH; intros; eapply H; eauto; now right].
  Qed.

  Lemma load_alts n : lalts (load n) = None.
  Proof. destruct n as [t a x k]. cbn [M_Drafts.load]. destruct (calc_hashes _ _ _ _ _ _ _). reflexivity. Qed.
  Lemma load_attrs n : lattrs (load n) = nattrs n /\ ltag (load n) = ntag n.
  Proof. destruct n as [t a x k]. cbn [M_Drafts.load]. destruct (calc_hashes _ _ _ _ _ _ _). auto. Qed.
  Lemma keyel_shell t n : keyel lower m t (shell (load n)) = keyel lower m t n.
  Proof. rewrite load_shell. now destruct n. Qed.
  Lemma pack_nil cs : pack_kids m dd cs = [] -> cs = [].
  Proof.
    intro E. destruct cs as [|c cs]; [reflexivity|exfalso].
    destruct (C23_nothing_lost m dd (c :: cs) c Hdd (or_introl eq_refl)) as (o & Ho & _). rewrite E in Ho. destruct Ho.
  Qed.
  Lemma key_leb_antisym p q : M_Normalise.key_leb p q = true -> M_Normalise.key_leb q p = true -> p = q.
  Proof.
    unfold M_Normalise.key_leb. intros L1 L2.
    rewrite (Nat.compare_antisym (fst p) (fst q)) in L2.
    destruct (Nat.compare_spec (fst p) (fst q)) as [E1| |]; try discriminate.
    cbn [CompOpp] in L2. rewrite (lcmp_str_antisym (snd p)) in L2.
    destruct (lcmp strcmp (snd p) (snd q)) eqn:E2; try discriminate.
    apply (lcmp_eq strcmp strcmp_eq) in E2. destruct p, q. cbn in *. congruence.
  Qed.

  Lemma reload n : stable n -> load (W (load n)) = load n.
  Proof.
    induction n as [t a x k IH] using node_ind'. intro S.
    inversion S as [t0 a0 x0 k0 Na Hd Hal Hs Nk Nh Sk]. subst.
    set (le := fun x y => el_leb lower m t (shell x) (shell y)).
    set (ks := isort le (map load k)).
    assert (load (Node t a x k) = let '(ah, ch) := calc_hashes hasher m true t a (clean_text ws x) (map lch ks) in
              LNode t a (clean_text ws x) ah ch None (pack_kids m dd ks)) as E0 by reflexivity.
    assert (Permutation (map load k) ks) as PK by apply isort_perm.
    assert (Forall (fun c => lalts c = None) ks) as KA.
    { apply Forall_forall. intros c Hc. apply in_isort, in_map_iff in Hc as (c0 & <- & _). apply load_alts. }
    assert (Forall (fun c => ~ In (ltag c) (m_serial m)) ks) as KS.
    { apply Forall_forall. intros c Hc. apply in_isort, in_map_iff in Hc as (c0 & <- & Hc0).
      destruct (load_attrs c0) as [_ ->]. rewrite Forall_forall in Hs. now apply Hs. }
    assert (NoDup (map kid ks)) as KN.
    { eapply Permutation_NoDup; [apply Permutation_map, PK|]. rewrite map_map. unfold kid, lget.
      erewrite map_ext; [exact Nh|]. intro c. cbn beta. now destruct (load_attrs c) as [-> _]. }
    pose proof (pack_regroups ks KA KS KN) as PG.
    (* the element written *)
    assert (exists ok, W (load (Node t a x k)) = Node t a (clean_text ws x) ok /\ Permutation (map load ok) ks) as (ok & EW & Pok).
    { rewrite E0. destruct (calc_hashes hasher m true t a (clean_text ws x) (map lch ks)) as [ah ch].
      unfold W at 1. cbn [fresh]. rewrite wr_eq. cbn zeta. cbn [fst].
      assert (map fresh (pack_kids m dd ks) = [] -> k = []) as KE.
      { intro E. apply map_eq_nil, pack_nil in E. rewrite E in PK. apply Permutation_sym, Permutation_nil in PK.
        now apply map_eq_nil in PK. }
      assert (k = [] -> map fresh (pack_kids m dd ks) = []) as EK.
      { intros ->. reflexivity. }
      assert (out_attrs dd silid None t a (map fresh (pack_kids m dd ks)) = a) as EA.
      { rewrite out_attrs_eq. cbn [set_alt].
        destruct (dropped dd silid t a (has_kids (map fresh (pack_kids m dd ks)))) eqn:D; [exfalso|reflexivity].
        apply (dropped_spec dd silid _ _ _ Na) in D as (d & Hin & Nd & Hc & Nt).
        destruct (Hd d Hin Nd Nt) as [Ek Ndd]. destruct Hc as [Hc|Hc]; [apply Hc, EK, Ek|contradiction]. }
      rewrite EA. eexists. split; [reflexivity|].
      destruct k as [|k1 kr]; [constructor|].
      assert (alt_of a = []) as EL.
      { unfold alt_of. destruct (dget streq a (lit "alt")) as [v|] eqn:G; [|reflexivity].
        apply (Hal v); [now apply (dget_In _ streq_spec)|discriminate]. }
      rewrite EL. set (k := k1 :: kr) in *.
      etransitivity; [apply Permutation_map, groups_out|].
      { intros p Hp. eapply pack_alts; eassumption. }
      etransitivity; [apply Permutation_map, Permutation_map, Permutation_sym, PG|].
      rewrite map_map. rewrite (map_ext_in _ (fun c => c)); [now rewrite map_id|].
      intros c Hc. apply in_isort, in_map_iff in Hc as (c0 & <- & Hc0). rewrite Forall_forall in IH, Sk. auto. }
    rewrite EW. cbn [M_Drafts.load]. fold le.
    assert (isort le (map load ok) = ks) as EKS.
    { unfold ks. apply isort_perm_eq.
      - intros u v. apply el_leb_total.
      - intros u v w. apply el_leb_trans.
      - intros u v Hu Hv L1 L2. apply (Permutation_in _ Pok), in_isort, in_map_iff in Hu as (u0 & <- & Hu).
        apply (Permutation_in _ Pok), in_isort, in_map_iff in Hv as (v0 & <- & Hv).
        unfold le, el_leb in L1, L2. rewrite !keyel_shell in L1, L2.
        f_equal. apply (NoDup_map_inj _ _ _ _ Nk Hu Hv). now apply key_leb_antisym.
      - etransitivity; [exact Pok|]. apply Permutation_sym, PK. }
    rewrite EKS, clean_text_idem by assumption. fold ks. reflexivity.
  Qed.
End Stable.

(** Loading, saving and loading again gives the same document: elements, attributes, texts, order,
    alternates and hashes. *)
Theorem C63_reload : forall ws lower hasher m dd silid n,
  ws 32%N = true /\ ws 9%N = true /\ ws 10%N = true -> In dd alldrafts ->
  stable ws lower hasher m dd silid n ->
  let d := load ws lower hasher m dd true n in
  let written := fst (wr dd silid None (fresh d)) in
  load ws lower hasher m dd true written = d.
Proof. intros. cbn zeta. now apply reload. Qed.
(** The text of such a document is the same after it was read and written once. *)
Theorem C63_second_save : forall ws lower hasher m dd silid n,
  ws 32%N = true /\ ws 9%N = true /\ ws 10%N = true -> In dd alldrafts ->
  stable ws lower hasher m dd silid n ->
  let once := fst (wr dd silid None (fresh (load ws lower hasher m dd true n))) in
  fst (wr dd silid None (fresh (load ws lower hasher m dd true once))) = once.
Proof.
  intros ws lower hasher m dd silid n Hw D S. pose proof (C63_reload ws lower hasher m dd silid n Hw D S) as E.
  cbn zeta in *. now rewrite E.
Qed.

(** A case: a month with two alternates, one of them with a draft. *)
Definition ex_stable : node :=
  el "ldml" [] [ txt "year" [("type", "2")] "feb"; txt "month" [("type", "1"); ("alt", "x"); ("draft", "approved")] "Jan";
                 txt "month" [("type", "1"); ("alt", "b")] "JAN"; txt "month" [("type", "1")] "jan" ]%string.
Fixpoint nodupb {A} (eq : A -> A -> bool) (l : list A) : bool :=
  match l with [] => true | x :: l => negb (existsb (eq x) l) && nodupb eq l end.
Lemma nodupb_spec {A} (eq : A -> A -> bool) l : (forall x, eq x x = true) -> nodupb eq l = true -> NoDup l.
Proof.
  intro R. induction l as [|x l IH]; cbn; intro H; constructor; apply andb_prop in H as [H1 H2]; auto.
  intro Hx. apply negb_true_iff in H1.
  enough (existsb (eq x) l = true) by congruence. apply existsb_exists. eauto.
Qed.
Example C63_ex_stable :
  stable ex_ws (fun s => s) ex_hash T_LdmlHash.ex_meta (lit "unconfirmed") ex_silid ex_stable
  /\ map (fun c => map fst (match walts c with Some al => al | None => [] end)) (wkids (ex_load ex_stable))
     = [ [lit "b"; lit "x"]; [] ].
Proof.
  split; [|vm_compute; reflexivity].
  assert (forall t a x, NoDup (map fst a) -> (forall d, In (lit "draft", d) a -> d <> [] -> t <> ex_silid -> d <> lit "unconfirmed") ->
    stable ex_ws (fun s => s) ex_hash T_LdmlHash.ex_meta (lit "unconfirmed") ex_silid (Node t a x [])) as L.
  { intros t a x N D. constructor; try (constructor; fail); auto.
    intros v _ H. now destruct H. }
  assert (forall l : list pystr, nodupb streq l = true -> NoDup l) as ND.
  { intros l. apply nodupb_spec. apply streq_refl. }
  unfold ex_stable, el, txt. constructor.
  - constructor.
  - intros d [].
  - intros v [].
  - repeat constructor; intro H; vm_compute in H; tauto.
  - apply (nodupb_spec (fun p q => Nat.eqb (fst p) (fst q) && (if list_eq_dec (list_eq_dec N.eq_dec) (snd p) (snd q) then true else false))).
    + intros [p q]. cbn [fst snd]. rewrite Nat.eqb_refl. now destruct (list_eq_dec _ q q).
    + vm_compute. reflexivity.
  - apply (nodupb_spec (fun p q => Z.eqb (fst p) (fst q) && opteq (snd p) (snd q))).
    + intros [p q]. cbn [fst snd]. rewrite Z.eqb_refl. destruct q as [q|]; cbn [opteq]; [apply streq_refl|reflexivity].
    + vm_compute. reflexivity.
  - repeat match goal with |- Forall _ (_ :: _) => apply Forall_cons | |- Forall _ [] => apply Forall_nil end; apply L;
      try (apply ND; vm_compute; reflexivity);
      intros d Hd _ _ ->; vm_compute in Hd; intuition discriminate.
Qed.

(** Without its default draft an element may sort in another place: saving, loading and saving
    again changes the order of the elements in the file. *)
Definition ex_order : node :=
  el "ldml" [] [ txt "year" [("type", "2"); ("draft", "unconfirmed")] "b"; txt "year" [("type", "1")] "a" ]%string.
Theorem C63_reorder_refuted :
  let save_load := fun n => fst (ex_wr (ex_load n)) in
  text_of (save_load ex_order)
    = text_of (el "ldml" [] [ txt "year" [("type", "2")] "b"; txt "year" [("type", "1")] "a" ]%string)
  /\ text_of (save_load (save_load ex_order))
    = text_of (el "ldml" [] [ txt "year" [("type", "1")] "a"; txt "year" [("type", "2")] "b" ]%string)
  /\ text_of (save_load (save_load ex_order)) <> text_of (save_load ex_order).
Proof. cbn zeta. split; [|split]; vm_compute; [reflexivity|reflexivity|discriminate]. Qed.
