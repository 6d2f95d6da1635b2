(** C74: the class data of Ldml: the orders of elements and attributes, and which attributes
    distinguish elements. *)
From Coq Require Import String Lia.
From Verif Require Import Py PyFacts M_LdmlBase M_Dtd.
From Verif Require M_ZoneTab T_ZoneTab.
Local Open Scope list_scope.
Local Open Scope nat_scope.

(** What the declarations say *)
(** the names in a content model, in the order they are written *)
Fixpoint names (n : cmodel) : list pystr := let '(CM nm kids) := n in match nm with Some t => [t] | None => [] end ++ flat_map names kids.
Definition full (t : pystr) : pystr := reverse_localns basens t.
(** [t] is last in [l] at place [i] (from 0) *)
Definition last_at (l : list pystr) (t : pystr) (i : nat) : Prop :=
  nth_error l i = Some t /\ forall j, nth_error l j = Some t -> j <= i.
(** attributes declared for element [e] *)
Fixpoint attributes (e : pystr) (ds : list decl) : list pystr :=
  match ds with
  | [] => []
  | AttlistDecl el att _ :: ds' => if streq (full el) e then full att :: attributes e ds' else attributes e ds'
  | _ :: ds' => attributes e ds'
  end.
Definition declares (e : pystr) (x : decl) : Prop := exists nm kids, x = ElementDecl nm kids /\ full nm = e.
Definition has_attribute (e a : pystr) (ds : list decl) : Prop := exists el att ty, In (AttlistDecl el att ty) ds /\ full el = e /\ full att = a.

(** numbering: later places win *)
Definition numstep (st : list (pystr * nat) * nat) (t : pystr) := (dset streq (fst st) t (S (snd st)), S (snd st)).
Lemma numbering l : forall t n, dget streq (fst (fold_left numstep l ([], 0))) t = Some n <-> exists i, n = S i /\ last_at l t i.
Proof.
  assert (C : forall l, snd (fold_left numstep l ([], 0)) = length l).
  { induction l0 as [|x l0 IH] using rev_ind; [reflexivity|]. rewrite fold_left_app, app_length. cbn [fold_left numstep snd length]. rewrite IH. lia. }
  induction l as [|x l IH] using rev_ind; intros t n.
  - cbn. split; [discriminate|]. intros (i & _ & E & _). now destruct i.
  - rewrite fold_left_app. cbn [fold_left]. unfold numstep at 1. cbn [fst]. rewrite (dget_dset streq streq_spec), C.
    destruct (streq_spec t x) as [->|Ne].
    + split.
      * intros E. injection E as <-. exists (length l). split; [reflexivity|]. split; [rewrite nth_error_app2, Nat.sub_diag by lia; reflexivity|].
        intros j E. assert (j < length (l ++ [x])) by (apply nth_error_Some; congruence). rewrite app_length in *. cbn in *. lia.
      * intros (i & -> & E & M). assert (length l <= i) by (apply M; rewrite nth_error_app2, Nat.sub_diag by lia; reflexivity).
        assert (i < length (l ++ [x])) by (apply nth_error_Some; congruence). rewrite app_length in *. cbn in *. repeat f_equal. lia.
    + rewrite IH. split; intros (i & -> & E & M); exists i; (split; [reflexivity|]).
      * split; [rewrite nth_error_app1; [exact E|apply nth_error_Some; congruence]|]. intros j Ej. apply M.
        assert (j < length l); [|now rewrite nth_error_app1 in Ej].
        assert (j < length (l ++ [x])) by (apply nth_error_Some; congruence). rewrite app_length in *. cbn in *.
        assert (j <> length l) by (intros ->; rewrite nth_error_app2, Nat.sub_diag in Ej by lia; cbn in Ej; congruence). lia.
      * assert (i < length l).
        { assert (i < length (l ++ [x])) by (apply nth_error_Some; congruence). rewrite app_length in *. cbn in *.
          assert (i <> length l) by (intros ->; rewrite nth_error_app2, Nat.sub_diag in E by lia; cbn in E; congruence). lia. }
        rewrite nth_error_app1 in E by assumption. split; [exact E|]. intros j Ej. apply M. rewrite nth_error_app1; [exact Ej|]. apply nth_error_Some. congruence.
Qed.

(** ** The order of elements *)
Section cmodel_ind'.
  Variable P : cmodel -> Prop.
  Hypothesis H : forall nm kids, Forall P kids -> P (CM nm kids).
  Fixpoint cmodel_ind' (n : cmodel) : P n :=
    match n with
    | CM nm kids => H nm kids ((fix go ks := match ks return Forall P ks with [] => Forall_nil _ | k :: ks' => Forall_cons _ (cmodel_ind' k) (go ks') end) kids)
    end.
End cmodel_ind'.
Definition elstep (name : pystr) (st : list (pystr * list (pystr * nat)) * nat) (t : pystr) :=
  (dset streq (fst st) name (dset streq (sub (fst st) name) (full t) (S (snd st))), S (snd st)).
Lemma procnode_names name n : forall st, procnode name st n = fold_left (elstep name) (names n) st.
Proof.
  induction n as [nm kids IH] using cmodel_ind'. intros st. cbn [procnode names].
  assert (K : forall st, fold_left (procnode name) kids st = fold_left (elstep name) (flat_map names kids) st).
  { clear st. induction IH as [|k kids Hk _ IHk]; intros st; [reflexivity|]. cbn [fold_left flat_map]. rewrite Hk, IHk, fold_left_app. reflexivity. }
  rewrite K. destruct nm; [rewrite fold_left_app|]; reflexivity.
Qed.
Lemma procnodes_names name kids st : fold_left (procnode name) kids st = fold_left (elstep name) (flat_map names kids) st.
Proof.
  revert st. induction kids as [|k kids IH]; intros st; [reflexivity|]. cbn [fold_left flat_map]. now rewrite procnode_names, IH, fold_left_app.
Qed.
Lemma sub_dset_same {A} (d : list (pystr * list (pystr * A))) k v : sub (dset streq d k v) k = v.
Proof. unfold sub. now rewrite (dget_dset_same streq streq_spec). Qed.
Lemma sub_dset_other {A} (d : list (pystr * list (pystr * A))) k k' v : k' <> k -> sub (dset streq d k v) k' = sub d k'.
Proof. intros N. unfold sub. now rewrite (dget_dset_other streq streq_spec). Qed.
Lemma elsteps_other name e l : e <> name -> forall st, sub (fst (fold_left (elstep name) l st)) e = sub (fst st) e.
Proof.
  intros N. induction l as [|t l IH]; intros st; [reflexivity|]. cbn [fold_left]. rewrite IH. unfold elstep. cbn [fst]. now apply sub_dset_other.
Qed.
Lemma elsteps_same name l : forall st, 
  (sub (fst (fold_left (elstep name) l st)) name, snd (fold_left (elstep name) l st)) = fold_left numstep (map full l) (sub (fst st) name, snd st).
Proof.
  induction l as [|t l IH]; intros st; [reflexivity|]. cbn [fold_left map]. rewrite IH. unfold elstep, numstep. cbn [fst snd].
  now rewrite sub_dset_same.
Qed.

Lemma run_app a b d : run_decls (a ++ b) d = do d' <- run_decls a d; run_decls b d'.
Proof.
  revert d. induction a as [|x a IH]; intros d; [reflexivity|]. cbn [app run_decls]. destruct (decl_step d x); [apply IH|reflexivity].
Qed.
(** an invariant of each step holds at the end *)
Lemma run_inv (I : dstate -> Prop) ds : (forall d x d', In x ds -> I d -> decl_step d x = Ok d' -> I d') ->
  forall d d', I d -> run_decls ds d = Ok d' -> I d'.
Proof.
  induction ds as [|x ds IH]; intros S d d' H R; [injection R as <-; exact H|]. cbn [run_decls] in R.
  destruct (decl_step d x) as [d1|] eqn:E; [|discriminate]. cbn [bind] in R. eapply IH; [|eapply (S d x d1); [now left|exact H|exact E]|exact R].
  intros; eapply S; [right; eassumption|eassumption|eassumption].
Qed.

(** all that a step may do *)
Lemma step_element d nm kids d' : decl_step d (ElementDecl nm kids) = Ok d' ->
  d_elord d' = fst (fold_left (elstep (full nm)) (flat_map names kids) (d_elord d, 0)) /\
  d_attord d' = dset streq (d_attord d) (full nm) [] /\ d_attcount d' = dset streq (d_attcount d) (full nm) 0 /\
  d_attvals d' = d_attvals d /\ d_key d' = d_key d /\
  d_maxels d' = Nat.max (d_maxels d) (S (snd (fold_left (elstep (full nm)) (flat_map names kids) (d_elord d, 0)))).
Proof.
  unfold decl_step. rewrite procnodes_names. fold (full nm). destruct (fold_left _ _ _) as [eo c]. intros E. injection E as <-. cbn. auto 10.
Qed.
Lemma step_attribute d el att ty d' : decl_step d (AttlistDecl el att ty) = Ok d' ->
  exists n, dget streq (d_attcount d) (full el) = Some n /\
  d_elord d' = d_elord d /\ d_maxels d' = d_maxels d /\
  d_attord d' = dset streq (d_attord d) (full el) (dset streq (sub (d_attord d) (full el)) (full att) (S n)) /\
  d_attcount d' = dset streq (d_attcount d) (full el) (S n) /\
  d_attvals d' = procattrib (d_attvals d) (full el) (full att) ty /\ d_key d' = key_add (d_key d) (full el) (full att).
Proof.
  unfold decl_step. fold (full el) (full att). destruct (dget streq (d_attcount d) (full el)) as [n|] eqn:E; [|discriminate]. intros H. injection H as <-. exists n. cbn. auto 10.
Qed.

Definition start (key0 : list (pystr * list pystr)) : dstate := mkD [] [] [] [] key0 0.

(** The number of a child element is its last place in the content model, and all numbers are
    below the one for unknown elements *)
Theorem C74_element_order : forall ws key0 nonkey0 before nm kids after tz serial items m,
  read_metadata ws key0 nonkey0 (before ++ ElementDecl nm kids :: after) tz serial items = Ok m ->
  (forall x, In x (before ++ after) -> ~ declares (full nm) x) ->
  (forall t n, dget streq (sub (m_elord m) (full nm)) t = Some n <-> exists i, n = S i /\ last_at (map full (flat_map names kids)) t i) /\
  length (flat_map names kids) < m_maxels m.
Proof.
  intros ws key0 nonkey0 before nm kids after tz serial items m H N. unfold read_metadata, read_dtd in H.
  fold (start key0) in H.
  destruct (run_decls (before ++ ElementDecl nm kids :: after) (start key0)) as [d|] eqn:R; [|discriminate]. cbn [bind] in H.
  assert (G : m_elord m = d_elord d /\ m_maxels m = d_maxels d).
  { destruct (map snd (d_attcount d)); [discriminate|]. cbn [bind] in H. destruct (M_ZoneTab.read_tz ws tz); [|discriminate]. cbn [bind] in H.
    destruct (fold_left item_step items (d_key d, nonkey0, [])) as [[k1 k2] k3]. injection H as <-. split; reflexivity. }
  destruct G as [-> ->]. clear H.
  rewrite run_app in R. destruct (run_decls before (start key0)) as [d1|] eqn:R1; [|discriminate]. cbn [bind run_decls] in R.
  destruct (decl_step d1 (ElementDecl nm kids)) as [d2|] eqn:E; [|discriminate]. cbn [bind] in R.
  assert (Stay : forall ds d d', (forall x, In x ds -> ~ declares (full nm) x) -> run_decls ds d = Ok d' ->
     sub (d_elord d') (full nm) = sub (d_elord d) (full nm) /\ d_maxels d <= d_maxels d').
  { intros ds da d' Nd. revert da d'. refine (fun da d' X => run_inv (fun z => sub (d_elord z) (full nm) = sub (d_elord da) (full nm) /\ d_maxels da <= d_maxels z) ds _ da d' _ X); [|split; auto].
    intros z x z' Ix [A B] Sx. destruct x as [nm' kids'|el att ty|c].
    - apply step_element in Sx. destruct Sx as (-> & _ & _ & _ & _ & ->). split; [|lia]. rewrite elsteps_other; [exact A|].
      intros Eq. apply (Nd _ Ix). exists nm', kids'. split; [reflexivity|now symmetry].
    - apply step_attribute in Sx. destruct Sx as (n & _ & -> & -> & _). auto.
    - injection Sx as <-. auto. }
  destruct (Stay before _ _ (fun x I => N x (proj2 (in_app_iff _ _ _) (or_introl I))) R1) as [S1 _].
  destruct (Stay after _ _ (fun x I => N x (proj2 (in_app_iff _ _ _) (or_intror I))) R) as [S2 M2].
  apply step_element in E. destruct E as (E1 & _ & _ & _ & _ & E2). pose proof (elsteps_same (full nm) (flat_map names kids) (d_elord d1, 0)) as X.
  cbn [fst snd] in X. rewrite S1 in X. unfold start in X. cbn [d_elord] in X. change (sub (A:=nat) [] (full nm)) with (@nil (pystr * nat)) in X.
  split.
  - intros t n. rewrite S2, E1. rewrite <- numbering. rewrite <- X. reflexivity.
  - assert (C : forall l s, snd (fold_left numstep l s) = snd s + length l).
    { induction l as [|x l IH]; intros s; cbn [fold_left length]; [lia|]. rewrite IH. cbn. lia. }
    assert (X2 : snd (fold_left (elstep (full nm)) (flat_map names kids) (d_elord d1, 0)) = length (flat_map names kids)).
    { change (snd (fold_left (elstep (full nm)) (flat_map names kids) (d_elord d1, 0))) with (snd (sub (fst (fold_left (elstep (full nm)) (flat_map names kids) (d_elord d1, 0))) (full nm), snd (fold_left (elstep (full nm)) (flat_map names kids) (d_elord d1, 0)))).
      rewrite X, C. cbn [snd]. now rewrite map_length. }
    lia.
Qed.

(** ** The order of attributes *)
Theorem C74_attribute_order : forall ws key0 nonkey0 before nm kids after tz serial items m,
  read_metadata ws key0 nonkey0 (before ++ ElementDecl nm kids :: after) tz serial items = Ok m ->
  (forall x, In x after -> ~ declares (full nm) x) ->
  (forall a n, dget streq (sub (m_attord m) (full nm)) a = Some n <-> exists i, n = S i /\ last_at (attributes (full nm) after) a i) /\
  length (attributes (full nm) after) < m_maxats m.
Proof.
  intros ws key0 nonkey0 before nm kids after tz serial items m H N. unfold read_metadata, read_dtd in H. fold (start key0) in H.
  destruct (run_decls (before ++ ElementDecl nm kids :: after) (start key0)) as [d|] eqn:R; [|discriminate]. cbn [bind] in H.
  assert (G : m_attord m = d_attord d /\ exists c cs, map snd (d_attcount d) = c :: cs /\ m_maxats m = S (fold_left Nat.max cs c)).
  { destruct (map snd (d_attcount d)) as [|c cs]; [discriminate|]. cbn [bind] in H. destruct (M_ZoneTab.read_tz ws tz); [|discriminate]. cbn [bind] in H.
    destruct (fold_left item_step items (d_key d, nonkey0, [])) as [[k1 k2] k3]. injection H as <-. split; [reflexivity|]. exists c, cs. split; reflexivity. }
  destruct G as (-> & c & cs & Ec & ->). clear H.
  rewrite run_app in R. destruct (run_decls before (start key0)) as [d1|] eqn:R1; [|discriminate]. cbn [bind run_decls] in R.
  destruct (decl_step d1 (ElementDecl nm kids)) as [d2|] eqn:E; [|discriminate]. cbn [bind] in R.
  apply step_element in E. destruct E as (_ & E1 & E2 & _).
  assert (G : forall ds z z' L, (forall x, In x ds -> ~ declares (full nm) x) -> run_decls ds z = Ok z' ->
     dget streq (d_attcount z) (full nm) = Some (snd (fold_left numstep L ([], 0))) -> sub (d_attord z) (full nm) = fst (fold_left numstep L ([], 0)) ->
     dget streq (d_attcount z') (full nm) = Some (snd (fold_left numstep (L ++ attributes (full nm) ds) ([], 0))) /\
     sub (d_attord z') (full nm) = fst (fold_left numstep (L ++ attributes (full nm) ds) ([], 0))).
  { induction ds as [|x ds IH]; intros z z' L Nd Rz A B; [injection Rz as <-; cbn [attributes]; now rewrite app_nil_r|].
    cbn [run_decls] in Rz. destruct (decl_step z x) as [z1|] eqn:Ex; [|discriminate]. cbn [bind] in Rz.
    assert (Nd' : forall y, In y ds -> ~ declares (full nm) y) by (intros; apply Nd; now right).
    destruct x as [nm' kids'|el att ty|cm]; cbn [attributes].
    - apply step_element in Ex. destruct Ex as (_ & X1 & X2 & _).
      assert (Ne : full nm <> full nm') by (intros Eq; apply (Nd _ (or_introl eq_refl)); exists nm', kids'; split; [reflexivity|now symmetry]).
      apply (IH z1 z' L Nd' Rz); [rewrite X2; now rewrite (dget_dset_other streq streq_spec)|rewrite X1; now rewrite sub_dset_other].
    - apply step_attribute in Ex. destruct Ex as (n & Gn & _ & _ & X1 & X2 & _). destruct (streq_spec (full el) (full nm)) as [Eq|Ne].
      + rewrite Eq in *. replace (L ++ full att :: attributes (full nm) ds) with ((L ++ [full att]) ++ attributes (full nm) ds) by now rewrite <- app_assoc.
        rewrite A in Gn. injection Gn as <-.
        apply (IH z1 z' _ Nd' Rz); rewrite fold_left_app; cbn [fold_left numstep fst snd].
        * rewrite X2. now rewrite (dget_dset_same streq streq_spec).
        * rewrite X1, sub_dset_same. unfold numstep. cbn [fst]. now rewrite B.
      + apply (IH z1 z' L Nd' Rz); [rewrite X2; rewrite (dget_dset_other streq streq_spec); [exact A|congruence]|rewrite X1; rewrite sub_dset_other; [exact B|congruence]].
    - injection Ex as <-. now apply (IH z z' L Nd' Rz). }
  destruct (G after d2 d [] N R) as [G1 G2].
  { rewrite E2. now rewrite (dget_dset_same streq streq_spec). }
  { rewrite E1. now rewrite sub_dset_same. }
  cbn [app] in G1, G2. split.
  - intros a n. rewrite G2. apply numbering.
  - assert (C : forall l s, snd (fold_left numstep l s) = snd s + length l).
    { induction l as [|x l IH]; intros s; cbn [fold_left length]; [lia|]. rewrite IH. cbn. lia. }
    rewrite C in G1. cbn [snd Nat.add] in G1. apply (dget_In streq streq_spec) in G1. apply (in_map snd) in G1. rewrite Ec in G1. cbn [snd] in G1.
    assert (Mx : forall l a x, In x (a :: l) -> x <= fold_left Nat.max l a).
    { induction l as [|y l IH]; intros a x I; cbn [fold_left].
      - destruct I as [->|[]]. lia.
      - assert (a <= fold_left Nat.max l (Nat.max a y)) by (etransitivity; [|apply IH; now left]; lia).
        destruct I as [->|[->|I]]; [assumption| |now apply IH; right]. etransitivity; [|apply IH; now left]; lia. }
    specialize (Mx cs c _ G1). lia.
Qed.

(** ** The order of values *)
(** from the last enumeration of the values of an attribute *)
Theorem C74_value_order : forall ws key0 nonkey0 before el att vals after tz serial items m,
  read_metadata ws key0 nonkey0 (before ++ AttlistDecl el att (lit "(" ++ join (lit "|") vals ++ lit ")") :: after) tz serial items = Ok m ->
  vals <> [] -> (forall v, In v vals -> ~ In 124%N v) -> full att <> lit "draft" -> (full el, full att) <> (lit "zone", lit "type") ->
  (forall el' att' ty', In (AttlistDecl el' att' ty') after -> full el' = full el -> full att' = full att -> startswith (lit "(") ty' = false) ->
  exists keys, dget streq (sub (m_attvals m) (full el)) (full att) = Some keys /\
    (forall v, (exists k, dget streq keys v = Some k) <-> In v vals) /\
    forall i j vi vj ki kj, last_at vals vi i -> last_at vals vj j -> dget streq keys vi = Some ki -> dget streq keys vj = Some kj ->
      length ki = length kj /\ strcmp ki kj = Nat.compare i j.
Proof.
  intros ws key0 nonkey0 before el att vals after tz serial items m H NE NB ND NZ NA. unfold read_metadata, read_dtd in H. fold (start key0) in H.
  set (ty := lit "(" ++ join (lit "|") vals ++ lit ")") in *.
  destruct (run_decls (before ++ AttlistDecl el att ty :: after) (start key0)) as [d|] eqn:R; [|discriminate]. cbn [bind] in H.
  assert (G : exists z, m_attvals m = dset streq (d_attvals d) (lit "zone") (dset streq (sub (d_attvals d) (lit "zone")) (lit "type") z)).
  { destruct (map snd (d_attcount d)) as [|c cs]; [discriminate|]. cbn [bind] in H. destruct (M_ZoneTab.read_tz ws tz) as [z|]; [|discriminate]. cbn [bind] in H.
    destruct (fold_left item_step items (d_key d, nonkey0, [])) as [[k1 k2] k3]. injection H as <-. exists z. reflexivity. }
  destruct G as (zt & G). clear H.
  rewrite run_app in R. destruct (run_decls before (start key0)) as [d1|] eqn:R1; [|discriminate]. cbn [bind run_decls] in R.
  destruct (decl_step d1 (AttlistDecl el att ty)) as [d2|] eqn:E; [|discriminate]. cbn [bind] in R.
  apply step_attribute in E. destruct E as (n & _ & _ & _ & _ & _ & E & _).
  assert (Ety : procattrib (d_attvals d1) (full el) (full att) ty = dset streq (d_attvals d1) (full el) (dset streq (sub (d_attvals d1) (full el)) (full att) (M_ZoneTab.enum_keys vals))).
  { unfold ty. change (lit "(" ++ join (lit "|") vals ++ lit ")") with (40%N :: join [124%N] vals ++ [41%N]). unfold procattrib.
    destruct (streq_spec (full att) (lit "draft")); [contradiction|]. rewrite removelast_last, split_join; [reflexivity|exact NE|]. apply Forall_forall. exact NB. }
  assert (K2 : dget streq (sub (d_attvals d2) (full el)) (full att) = Some (M_ZoneTab.enum_keys vals)).
  { rewrite E, Ety, sub_dset_same. apply (dget_dset_same streq streq_spec). }
  assert (K : dget streq (sub (d_attvals d) (full el)) (full att) = Some (M_ZoneTab.enum_keys vals)).
  { refine (run_inv (fun z => dget streq (sub (d_attvals z) (full el)) (full att) = Some (M_ZoneTab.enum_keys vals)) after _ d2 d K2 R).
    intros z x z' Ix A Sx. destruct x as [nm' kids'|el' att' ty'|c].
    - apply step_element in Sx. destruct Sx as (_ & _ & _ & -> & _). exact A.
    - apply step_attribute in Sx. destruct Sx as (n' & _ & _ & _ & _ & _ & -> & _). unfold procattrib.
      destruct ty' as [|b ty']; [exact A|]. destruct (N.eq_dec b 40) as [->|Nb].
      + destruct (streq (full att') (lit "draft")); [exact A|]. destruct (streq_spec (full el) (full el')) as [Ee|Ne].
        * rewrite <- Ee in *. rewrite sub_dset_same. rewrite (dget_dset_other streq streq_spec); [exact A|]. intros Ea.
          specialize (NA _ _ _ Ix (eq_sym Ee) (eq_sym Ea)). discriminate NA.
        * now rewrite sub_dset_other.
      + destruct b as [|p]; [exact A|]. destruct p as [p|p|]; try exact A. destruct p as [p|p|]; try exact A. destruct p as [p|p|]; try exact A.
        destruct p as [p|p|]; try exact A. destruct p as [p|p|]; try exact A. destruct p as [p|p|]; try exact A. now contradict Nb.
    - injection Sx as <-. exact A. }
  exists (M_ZoneTab.enum_keys vals). split.
  - rewrite G. destruct (streq_spec (full el) (lit "zone")) as [Ee|Ne]; [|now rewrite sub_dset_other].
    rewrite <- Ee, sub_dset_same, (dget_dset_other streq streq_spec); [exact K|]. intros Ea. apply NZ. now rewrite Ee, Ea.
  - destruct (T_ZoneTab.enum_keys_spec vals) as [A B]. split; [exact A|]. intros i j vi vj ki kj [Ei Li] [Ej Lj]. now apply B.
Qed.
(** The zones have the order of tzones.csv, whatever the DTD says *)
Theorem C74_zone_order : forall ws key0 nonkey0 ds tz serial items m t,
  read_metadata ws key0 nonkey0 ds tz serial items = Ok m -> M_ZoneTab.read_tz ws tz = Ok t ->
  dget streq (sub (m_attvals m) (lit "zone")) (lit "type") = Some t.
Proof.
  intros ws key0 nonkey0 ds tz serial items m t H T. unfold read_metadata in H. destruct (read_dtd key0 ds) as [[d mx]|]; [|discriminate]. cbn [bind] in H.
  rewrite T in H. cbn [bind] in H. destruct (fold_left item_step items (d_key d, nonkey0, [])) as [[k1 k2] k3]. injection H as <-. cbn [m_attvals].
  rewrite sub_dset_same. apply (dget_dset_same streq streq_spec).
Qed.

(** ** Distinguishing attributes *)
Definition setof (d : list (pystr * list pystr)) (k : pystr) : list pystr := match dget streq d k with Some s => s | None => [] end.
Lemma memstr_In x l : memstr x l = true <-> In x l.
Proof.
  unfold memstr. rewrite existsb_exists. split.
  - intros (y & I & E). apply streq_true in E. now subst.
  - intros I. exists x. split; [exact I|apply streq_refl].
Qed.
Lemma sadd_In x y s : In x (sadd y s) <-> x = y \/ In x s.
Proof.
  unfold sadd. destruct (memstr y s) eqn:E.
  - apply memstr_In in E. split; [auto|]. intros [->|I]; assumption.
  - rewrite in_app_iff. cbn. intuition.
Qed.
Lemma supdate_In x xs : forall s, In x (supdate s xs) <-> In x s \/ In x xs.
Proof.
  induction xs as [|y xs IH]; intros s; [cbn; tauto|]. change (supdate s (y :: xs)) with (supdate (sadd y s) xs). rewrite IH, sadd_In. cbn. intuition.
Qed.
Lemma key_add_In d e a e' a' : In a' (setof (key_add d e a) e') <-> In a' (setof d e') \/ (e' = e /\ a' = a).
Proof.
  unfold key_add, setof. rewrite (dget_dset streq streq_spec). destruct (streq_spec e' e) as [->|N]; [rewrite sadd_In|]; intuition.
Qed.
Lemma key_update_In attrs els : forall d e a, In a (setof (key_update d els attrs) e) <-> In a (setof d e) \/ (In e els /\ In a attrs).
Proof.
  induction els as [|x els IH]; intros d e a; [cbn; tauto|].
  change (key_update d (x :: els) attrs) with (key_update (dset streq d x (supdate (setof d x) attrs)) els attrs). rewrite IH.
  unfold setof at 1. rewrite (dget_dset streq streq_spec). destruct (streq_spec e x) as [->|N]; [rewrite supdate_In|]; cbn; intuition; congruence.
Qed.
Lemma run_keys ds : forall d d', run_decls ds d = Ok d' -> forall e a, In a (setof (d_key d') e) <-> In a (setof (d_key d) e) \/ has_attribute e a ds.
Proof.
  induction ds as [|x ds IH]; intros d d' R e a.
  - injection R as <-. split; [auto|]. intros [I|(el & att & ty & [] & _)]; exact I.
  - cbn [run_decls] in R. destruct (decl_step d x) as [d1|] eqn:E; [|discriminate]. cbn [bind] in R. rewrite (IH _ _ R).
    assert (Skip : d_key d1 = d_key d -> (forall el att ty, x <> AttlistDecl el att ty) -> In a (setof (d_key d1) e) \/ has_attribute e a ds <-> In a (setof (d_key d) e) \/ has_attribute e a (x :: ds)).
    { intros -> Nx. split; (intros [I|(el & att & ty & I & P)]; [now left|right; exists el, att, ty]); split; auto; [now right|].
      destruct I as [I|I]; [now apply Nx in I|exact I]. }
    destruct x as [nm kids|el att ty|c].
    + apply Skip; [now apply step_element in E|discriminate].
    + apply step_attribute in E. destruct E as (n & _ & _ & _ & _ & _ & _ & ->). rewrite key_add_In. split.
      * intros [[I|[-> ->]]|(el' & att' & ty' & I & P)]; [now left| |].
        { right. exists el, att, ty. split; [now left|auto]. }
        { right. exists el', att', ty'. split; [now right|exact P]. }
      * intros [I|(el' & att' & ty' & [I|I] & P1 & P2)]; [auto| |].
        { injection I as <- <- <-. left. right. auto. }
        { right. exists el', att', ty'. auto. }
    + apply Skip; [now injection E as <-|discriminate].
Qed.
(** what the items of the metadata say *)
Definition item_key (e a : pystr) (excl : bool) (items : list ditem) : Prop :=
  exists i els, In i items /\ i_elements i = Some els /\ i_exclude i = excl /\ In e els /\ In a (i_attributes i).
Definition item_all (a : pystr) (items : list ditem) : Prop := exists i, In i items /\ i_elements i = None /\ In a (i_attributes i).
Lemma items_spec items : forall key nonkey keys, let '(k', n', ks') := fold_left item_step items (key, nonkey, keys) in
  (forall e a, In a (setof k' e) <-> In a (setof key e) \/ item_key e a false items) /\
  (forall e a, In a (setof n' e) <-> In a (setof nonkey e) \/ item_key e a true items) /\
  (forall a, In a ks' <-> In a keys \/ item_all a items).
Proof.
  induction items as [|i items IH]; intros key nonkey keys.
  - cbn [fold_left]. repeat split; try (now left); intros [I|X]; try exact I; exfalso.
    + destruct X as (i & els & [] & _).
    + destruct X as (i & els & [] & _).
    + destruct X as (i & [] & _).
  - cbn [fold_left]. unfold item_step at 2.
    assert (C : forall e a b, item_key e a b (i :: items) <-> (exists els, i_elements i = Some els /\ i_exclude i = b /\ In e els /\ In a (i_attributes i)) \/ item_key e a b items).
    { intros e a b. split.
      - intros (i' & els & [<-|I] & P); [left; exists els; exact P|right; exists i', els; auto].
      - intros [(els & P)|(i' & els & I & P)]; [exists i, els; split; [now left|exact P]|exists i', els; split; [now right|exact P]]. }
    assert (D : forall a, item_all a (i :: items) <-> (i_elements i = None /\ In a (i_attributes i)) \/ item_all a items).
    { intros a. split.
      - intros (i' & [<-|I] & P); [left; exact P|right; exists i'; auto].
      - intros [P|(i' & I & P)]; [exists i; split; [now left|exact P]|exists i'; split; [now right|exact P]]. }
    destruct (i_elements i) as [els|] eqn:Ee; [destruct (i_exclude i) eqn:Ex|].
    + specialize (IH key (key_update nonkey els (i_attributes i)) keys). destruct (fold_left _ _ _) as [[k' n'] ks']. destruct IH as (A & B & E).
      repeat split; intros.
      * apply A in H. rewrite C. tauto.
      * apply A. rewrite C in H. destruct H as [H|[(els' & X & Y & Z)|H]]; [now left|discriminate|now right].
      * apply B in H. rewrite key_update_In in H. rewrite C. destruct H as [[H|H]|H]; [now left| |tauto]. right. left. exists els. tauto.
      * apply B. rewrite key_update_In. rewrite C in H. destruct H as [H|[(els' & X & Y & Z)|H]]; [tauto| |tauto]. injection X as ->. tauto.
      * apply E in H. rewrite D. tauto.
      * apply E. rewrite D in H. destruct H as [H|[[X _]|H]]; [tauto|discriminate|tauto].
    + specialize (IH (key_update key els (i_attributes i)) nonkey keys). destruct (fold_left _ _ _) as [[k' n'] ks']. destruct IH as (A & B & E).
      repeat split; intros.
      * apply A in H. rewrite key_update_In in H. rewrite C. destruct H as [[H|H]|H]; [now left| |tauto]. right. left. exists els. tauto.
      * apply A. rewrite key_update_In. rewrite C in H. destruct H as [H|[(els' & X & Y & Z)|H]]; [tauto| |tauto]. injection X as ->. tauto.
      * apply B in H. rewrite C. tauto.
      * apply B. rewrite C in H. destruct H as [H|[(els' & X & Y & Z)|H]]; [now left|discriminate|now right].
      * apply E in H. rewrite D. tauto.
      * apply E. rewrite D in H. destruct H as [H|[[X _]|H]]; [tauto|discriminate|tauto].
    + specialize (IH key nonkey (supdate keys (i_attributes i))). destruct (fold_left _ _ _) as [[k' n'] ks']. destruct IH as (A & B & E).
      repeat split; intros.
      * apply A in H. rewrite C. tauto.
      * apply A. rewrite C in H. destruct H as [H|[(els' & X & Y & Z)|H]]; [now left|discriminate|now right].
      * apply B in H. rewrite C. tauto.
      * apply B. rewrite C in H. destruct H as [H|[(els' & X & Y & Z)|H]]; [now left|discriminate|now right].
      * apply E in H. rewrite supdate_In in H. rewrite D. tauto.
      * apply E. rewrite supdate_In. rewrite D in H. tauto.
Qed.
(** the three elements of SIL with keys of their own *)
Definition sil_own : list (pystr * list pystr) :=
  [(siltag (lit "matched-pair"), [lit "open"; lit "close"]); (siltag (lit "quotation"), [lit "level"]);
   (siltag (lit "punctuation-pattern"), [lit "context"; lit "pattern"])].
Lemma sil_keys_get key e : dget streq (sil_keys key) e = match dget streq sil_own e with Some s => Some s | None => dget streq key e end.
Proof.
  unfold sil_keys, sil_own. rewrite !(dget_dset streq streq_spec). cbn [dget].
  destruct (streq_spec e (siltag (lit "punctuation-pattern"))) as [->|]; [reflexivity|].
  destruct (streq_spec e (siltag (lit "quotation"))) as [->|]; [reflexivity|].
  destruct (streq_spec e (siltag (lit "matched-pair"))) as [->|]; reflexivity.
Qed.
Lemma sil_setof key e a : In a (setof (sil_keys key) e) <-> (exists s, dget streq sil_own e = Some s /\ In a s) \/ (dget streq sil_own e = None /\ In a (setof key e)).
Proof.
  unfold setof at 1. rewrite sil_keys_get. destruct (dget streq sil_own e) as [s|]; split.
  - intros I. left. exists s. auto.
  - intros [(s' & E & I)|[E _]]; [|discriminate]. now injection E as ->.
  - intros I. now right.
  - intros [(s' & E & _)|[_ I]]; [discriminate|exact I].
Qed.
Lemma metadata_keys ws key0 nonkey0 ds tz serial items m : read_metadata ws key0 nonkey0 ds tz serial items = Ok m ->
  (forall e a, In a (setof (m_key m) e) <-> (exists s, dget streq sil_own e = Some s /\ In a s) \/ (dget streq sil_own e = None /\ (In a (setof key0 e) \/ has_attribute e a ds \/ item_key e a false items))) /\
  (forall e a, In a (setof (m_nonkey m) e) <-> In a (setof nonkey0 e) \/ item_key e a true items) /\
  (forall a, In a (m_keys m) <-> item_all a items).
Proof.
  intros H. unfold read_metadata, read_dtd in H. fold (start key0) in H.
  destruct (run_decls ds (start key0)) as [d|] eqn:R; [|discriminate]. cbn [bind] in H. destruct (map snd (d_attcount d)); [discriminate|]. cbn [bind] in H.
  destruct (M_ZoneTab.read_tz ws tz); [|discriminate]. cbn [bind] in H.
  pose proof (items_spec items (d_key d) nonkey0 []) as X. destruct (fold_left item_step items (d_key d, nonkey0, [])) as [[k' n'] ks']. destruct X as (A & B & C).
  injection H as <-. cbn [m_key m_nonkey m_keys]. repeat split.
  - intros I. apply sil_setof in I. destruct I as [I|[I J]]; [now left|right]. split; [exact I|]. apply A in J. rewrite (run_keys _ _ _ R) in J. cbn [d_key start] in J. tauto.
  - intros I. apply sil_setof. destruct I as [I|[I J]]; [now left|right]. split; [exact I|]. apply A. rewrite (run_keys _ _ _ R). cbn [d_key start]. tauto.
  - intros I. now apply B.
  - intros I. now apply B.
  - intros I. apply C in I. destruct I as [[]|I]. exact I.
  - intros I. apply C. now right.
Qed.

(** Which attributes distinguish elements, in full *)
Theorem C74_distinguishing : forall ws key0 nonkey0 ds tz serial items m usedrafts e a,
  read_metadata ws key0 nonkey0 ds tz serial items = Ok m ->
  (is_dist m usedrafts e a = true <->
   ((item_all a items /\ ~ In a (setof nonkey0 e) /\ ~ item_key e a true items) \/
    (exists s, dget streq sil_own e = Some s /\ In a s) \/
    (dget streq sil_own e = None /\ (In a (setof key0 e) \/ has_attribute e a ds \/ item_key e a false items)))
   /\ ~ (usedrafts = true /\ a = lit "draft")).
Proof.
  intros ws key0 nonkey0 ds tz serial items m usedrafts e a H. destruct (metadata_keys _ _ _ _ _ _ _ _ H) as (A & B & C).
  unfold is_dist. rewrite andb_true_iff, orb_true_iff, andb_true_iff, !negb_true_iff.
  fold (setof (m_nonkey m) e). fold (setof (m_key m) e).
  assert (M : forall x l, memstr x l = false <-> ~ In x l) by (intros; rewrite <- memstr_In; destruct (memstr x l); intuition; discriminate).
  rewrite !memstr_In, M, A, B, C. rewrite andb_false_iff, streq_false. destruct usedrafts; intuition; try discriminate; try congruence.
Qed.
(** So every attribute the DTD gives an element distinguishes it, also if the DTD marks it
    "METADATA" or "VALUE", or the metadata exclude it *)
Theorem C74_all_declared : forall ws key0 nonkey0 ds tz serial items m e a,
  read_metadata ws key0 nonkey0 ds tz serial items = Ok m -> has_attribute e a ds -> dget streq sil_own e = None ->
  is_dist m false e a = true /\ (a <> lit "draft" -> is_dist m true e a = true).
Proof.
  intros ws key0 nonkey0 ds tz serial items m e a H A N. split; [|intros D]; apply (C74_distinguishing _ _ _ _ _ _ _ _ _ _ _ H); (split; [tauto|]).
  - intros [X _]. discriminate.
  - intros [_ X]. now apply D.
Qed.
(** The marks in comments have no effect at all *)
Theorem C74_comments_ignored : forall ws key0 nonkey0 ds tz serial items,
  read_metadata ws key0 nonkey0 (filter (fun x => match x with CommentDecl _ => false | _ => true end) ds) tz serial items
  = read_metadata ws key0 nonkey0 ds tz serial items.
Proof.
  intros. unfold read_metadata, read_dtd. fold (start key0). generalize (start key0). intros d0.
  assert (E : forall d, run_decls (filter (fun x => match x with CommentDecl _ => false | _ => true end) ds) d = run_decls ds d); [|now rewrite E]. clear d0.
  induction ds as [|x ds IH]; intros d; [reflexivity|]. destruct x; cbn [filter run_decls]; try (destruct (decl_step _ _); [cbn [bind]; apply IH|reflexivity]).
  cbn [decl_step bind]. apply IH.
Qed.

(** ** Reading again *)
Definition same_but_keys (d d' : dstate) : Prop :=
  d_elord d = d_elord d' /\ d_attord d = d_attord d' /\ d_attcount d = d_attcount d' /\ d_attvals d = d_attvals d' /\ d_maxels d = d_maxels d'.
Lemma run_same ds : forall d d' r, same_but_keys d d' -> run_decls ds d = Ok r -> exists r', run_decls ds d' = Ok r' /\ same_but_keys r r'.
Proof.
  induction ds as [|x ds IH]; intros d d' r S R; [injection R as <-; exists d'; split; [reflexivity|exact S]|].
  cbn [run_decls] in R |- *. destruct (decl_step d x) as [d1|] eqn:E; [|discriminate]. cbn [bind] in R.
  assert (X : exists d1', decl_step d' x = Ok d1' /\ same_but_keys d1 d1').
  { destruct d as [a1 a2 a3 a4 a5 a6], d' as [b1 b2 b3 b4 b5 b6]. unfold same_but_keys in S. cbn in S. destruct S as (-> & -> & -> & -> & ->).
    destruct x as [nm kids|el att ty|c]; cbn [decl_step d_elord d_attord d_attcount d_attvals d_key d_maxels] in *.
    - destruct (fold_left (procnode (reverse_localns basens nm)) kids (b1, 0)) as [eo c]. injection E as <-. eexists. split; [reflexivity|]. now repeat split.
    - destruct (dget streq b3 (reverse_localns basens el)); [|discriminate]. injection E as <-. eexists. split; [reflexivity|]. now repeat split.
    - injection E as <-. eexists. split; [reflexivity|]. now repeat split. }
  destruct X as (d1' & -> & S1). cbn [bind]. now apply (IH d1 d1' r S1).
Qed.
(** Reading the same files once more changes nothing that can be seen, although the contexts
    are not emptied before *)
Theorem C74_reread : forall ws key0 nonkey0 ds tz serial items m,
  read_metadata ws key0 nonkey0 ds tz serial items = Ok m ->
  exists m', read_metadata ws (m_key m) (m_nonkey m) ds tz serial items = Ok m' /\
    (forall usedrafts e a, is_dist m' usedrafts e a = is_dist m usedrafts e a) /\
    m_attord m' = m_attord m /\ m_maxats m' = m_maxats m /\ m_elord m' = m_elord m /\ m_maxels m' = m_maxels m /\
    m_attvals m' = m_attvals m /\ m_serial m' = m_serial m /\ m_blocks m' = m_blocks m.
Proof.
  intros ws key0 nonkey0 ds tz serial items m H. pose proof H as H0.
  assert (Ex : exists m', read_metadata ws (m_key m) (m_nonkey m) ds tz serial items = Ok m' /\ m_attord m' = m_attord m /\ m_maxats m' = m_maxats m /\ m_elord m' = m_elord m /\ m_maxels m' = m_maxels m /\
    m_attvals m' = m_attvals m /\ m_serial m' = m_serial m /\ m_blocks m' = m_blocks m).
  { unfold read_metadata, read_dtd in H |- *. fold (start key0) in H. fold (start (m_key m)).
    destruct (run_decls ds (start key0)) as [d|] eqn:R; [|discriminate]. cbn [bind] in H.
    destruct (run_same ds (start key0) (start (m_key m)) d ltac:(now repeat split) R) as (d' & -> & S1 & S2 & S3 & S4 & S5). cbn [bind].
    rewrite <- S3. destruct (map snd (d_attcount d)) as [|c cs]; [discriminate|]. cbn [bind] in *.
    destruct (M_ZoneTab.read_tz ws tz); [|discriminate]. cbn [bind] in *.
    destruct (fold_left item_step items (d_key d, nonkey0, [])) as [[k1 k2] k3]. injection H as <-. cbn [m_key m_nonkey].
    destruct (fold_left item_step items (d_key d', k2, [])) as [[k1' k2'] k3']. eexists. split; [reflexivity|]. cbn. rewrite S1, S2, S4, S5. now repeat split. }
  destruct Ex as (m' & E & F). exists m'. split; [exact E|]. split; [|exact F]. intros ud e a.
  destruct (metadata_keys _ _ _ _ _ _ _ _ H0) as (A & B & C).
  pose proof (C74_distinguishing _ _ _ _ _ _ _ _ ud e a H0) as D1. pose proof (C74_distinguishing _ _ _ _ _ _ _ _ ud e a E) as D2.
  rewrite A, B in D2. destruct (is_dist m' ud e a), (is_dist m ud e a); try reflexivity.
  - symmetry. apply D1. destruct (proj1 D2 eq_refl) as [X Y]. split; [|exact Y]. destruct X as [X|[X|(X & [[Z|(_ & Z)]|Z])]]; tauto.
  - apply D2. destruct (proj1 D1 eq_refl) as [X Y]. split; [|exact Y]. destruct X as [X|[X|(X & Z)]]; tauto.
Qed.

(** ** When it fails *)
Theorem C74_undeclared_element : forall ws key0 nonkey0 before el att ty after tz serial items,
  (forall x, In x before -> ~ declares (full el) x) ->
  read_metadata ws key0 nonkey0 (before ++ AttlistDecl el att ty :: after) tz serial items = Raise KeyError.
Proof.
  intros ws key0 nonkey0 before el att ty after tz serial items N.
  unfold read_metadata, read_dtd. fold (start key0). rewrite run_app.
  assert (K : forall ds d d', run_decls ds d = Raise d' -> d' = KeyError).
  { induction ds as [|x ds IH]; intros d d' R; [discriminate|]. cbn [run_decls] in R. destruct (decl_step d x) as [d1|ex] eqn:E; [now apply (IH d1)|]. injection R as <-.
    destruct x as [nm kids|el' att' ty'|c]; unfold decl_step in E.
    - destruct (fold_left _ _ _); discriminate.
    - destruct (dget _ _ _); [discriminate|]. now injection E.
    - discriminate. }
  destruct (run_decls before (start key0)) as [d|ex] eqn:R; cbn [bind]; [|now rewrite (K _ _ _ R)].
  assert (X : dget streq (d_attcount d) (full el) = None).
  { refine (run_inv (fun z => dget streq (d_attcount z) (full el) = None) before _ (start key0) d eq_refl R).
    intros z x z' Ix A Sx. destruct x as [nm kids|el' att' ty'|c].
    - apply step_element in Sx. destruct Sx as (_ & _ & -> & _). rewrite (dget_dset_other streq streq_spec); [exact A|].
      intros Eq. apply (N _ Ix). exists nm, kids. split; [reflexivity|now symmetry].
    - apply step_attribute in Sx. destruct Sx as (n & Gn & _ & _ & _ & -> & _). rewrite (dget_dset_other streq streq_spec); [exact A|].
      intros Eq. rewrite Eq, Gn in A. discriminate.
    - injection Sx as <-. exact A. }
  cbn [run_decls decl_step]. fold (full el). rewrite X. reflexivity.
Qed.
Lemma run_total ds : forall d, (forall before el att ty after, ds = before ++ AttlistDecl el att ty :: after ->
    dget streq (d_attcount d) (full el) <> None \/ exists x, In x before /\ declares (full el) x) -> exists d', run_decls ds d = Ok d'.
Proof.
  induction ds as [|x ds IH]; intros d H; [exists d; reflexivity|]. cbn [run_decls].
  assert (E : exists d1, decl_step d x = Ok d1 /\ (forall e, dget streq (d_attcount d) e <> None -> dget streq (d_attcount d1) e <> None) /\ (forall e, declares e x -> dget streq (d_attcount d1) e <> None)).
  { destruct x as [nm kids|el att ty|c].
    - destruct (decl_step d (ElementDecl nm kids)) as [d1|] eqn:E; [|unfold decl_step in E; destruct (fold_left _ _ _); discriminate].
      exists d1. split; [reflexivity|]. apply step_element in E. destruct E as (_ & _ & -> & _). split.
      + intros e N. rewrite (dget_dset streq streq_spec). now destruct (streq e (full nm)).
      + intros e (nm' & kids' & Eq & <-). injection Eq as <- <-. now rewrite (dget_dset_same streq streq_spec).
    - destruct (decl_step d (AttlistDecl el att ty)) as [d1|] eqn:E.
      + exists d1. split; [reflexivity|]. apply step_attribute in E. destruct E as (n & _ & _ & _ & _ & -> & _). split.
        * intros e N. rewrite (dget_dset streq streq_spec). now destruct (streq e (full el)).
        * intros e (nm' & kids' & Eq & _). discriminate.
      + exfalso. destruct (H [] el att ty ds eq_refl) as [N|(x & [] & _)]. unfold decl_step in E. fold (full el) in E. destruct (dget streq (d_attcount d) (full el)); [discriminate|]. now apply N.
    - exists d. split; [reflexivity|]. split; [auto|]. intros e (nm' & kids' & Eq & _). discriminate. }
  destruct E as (d1 & -> & K1 & K2). cbn [bind]. apply IH. intros before el att ty after ->.
  destruct (H (x :: before) el att ty after eq_refl) as [N|(y & [->|I] & D)]; [left; now apply K1|left; now apply K2|right; exists y; auto].
Qed.
(** It works when each attribute list comes after its element, there is an element, and there is
    a zone *)
Theorem C74_reads : forall ws key0 nonkey0 ds tz serial items,
  (forall before el att ty after, ds = before ++ AttlistDecl el att ty :: after -> exists x, In x before /\ declares (full el) x) ->
  (exists e x, In x ds /\ declares e x) -> tz <> [] ->
  exists m, read_metadata ws key0 nonkey0 ds tz serial items = Ok m.
Proof.
  intros ws key0 nonkey0 ds tz serial items A (e & x & I & D) T. unfold read_metadata, read_dtd. fold (start key0).
  destruct (run_total ds (start key0)) as (d & R). { intros before el att ty after E. right. now apply (A before el att ty after). }
  rewrite R. cbn [bind].
  assert (C : dget streq (d_attcount d) e <> None).
  { apply in_split in I. destruct I as (l1 & l2 & ->). rewrite run_app in R. destruct (run_decls l1 (start key0)) as [d1|]; [|discriminate]. cbn [bind run_decls] in R.
    destruct (decl_step d1 x) as [d2|] eqn:E; [|discriminate]. cbn [bind] in R.
    refine (run_inv (fun z => dget streq (d_attcount z) e <> None) l2 _ d2 d _ R).
    - intros z y z' _ Hz Sx. destruct y as [nm kids|el' att' ty'|c].
      + apply step_element in Sx. destruct Sx as (_ & _ & -> & _). rewrite (dget_dset streq streq_spec). now destruct (streq e (full nm)).
      + apply step_attribute in Sx. destruct Sx as (n & _ & _ & _ & _ & -> & _). rewrite (dget_dset streq streq_spec). now destruct (streq e (full el')).
      + injection Sx as <-. exact Hz.
    - destruct D as (nm & kids & -> & <-). apply step_element in E. destruct E as (_ & _ & -> & _). now rewrite (dget_dset_same streq streq_spec). }
  destruct (d_attcount d) as [|[k c] cs]; [now contradict C|]. cbn [map snd].
  destruct (M_ZoneTab.read_tz ws tz) as [t|ex] eqn:Tz.
  - cbn [bind]. destruct (fold_left item_step items (d_key d, nonkey0, [])) as [[k1 k2] k3]. eauto.
  - exfalso. destruct tz; [now apply T|]. unfold M_ZoneTab.read_tz in Tz. cbn [map] in Tz. discriminate.
Qed.
Theorem C74_no_zones : forall ws key0 nonkey0 ds serial items m, read_metadata ws key0 nonkey0 ds [] serial items <> Ok m.
Proof.
  intros. unfold read_metadata. destruct (read_dtd key0 ds); cbn; discriminate.
Qed.
(** The elements merged as a whole are two, whatever the DTD marks as "BLOCK"; "special" is always a serial element *)
Theorem C74_blocks_serial : forall ws key0 nonkey0 ds tz serial items m, read_metadata ws key0 nonkey0 ds tz serial items = Ok m ->
  m_blocks m = [lit "identity"; lit "collation"] /\ (forall x, In x (m_serial m) <-> In x serial \/ x = lit "special").
Proof.
  intros ws key0 nonkey0 ds tz serial items m H. unfold read_metadata in H. destruct (read_dtd key0 ds) as [[d mx]|]; [|discriminate]. cbn [bind] in H.
  destruct (M_ZoneTab.read_tz ws tz); [|discriminate]. cbn [bind] in H. destruct (fold_left item_step items (d_key d, nonkey0, [])) as [[k1 k2] k3]. injection H as <-. cbn [m_blocks m_serial].
  split; [reflexivity|]. intros x. rewrite supdate_In, in_app_iff. cbn. intuition.
Qed.

(** A piece of sil.dtd *)
Definition ex_dtd : list decl :=
  [ElementDecl (lit "identity") [CM (Some (lit "alias")) []; CM None [CM (Some (lit "version")) []; CM (Some (lit "language")) []; CM (Some (lit "special")) []]];
   CommentDecl (lit "@BLOCK");
   ElementDecl (lit "language") []; AttlistDecl (lit "language") (lit "type") (lit "NMTOKEN"); AttlistDecl (lit "language") (lit "references") (lit "CDATA");
   CommentDecl (lit "@METADATA");
   ElementDecl (lit "sil:font") []; AttlistDecl (lit "sil:font") (lit "type") (lit "(default|heading|emphasis)")].
Example C74_ex : exists m, read_metadata T_ZoneTab.spc [] [] ex_dtd [lit "Asia/Calcutta, IN, 1, 1"] [lit "comment"] [mkItem (Some [lit "language"]) true [lit "references"]] = Ok m /\
  dget streq (sub (m_elord m) (lit "identity")) (lit "language") = Some 3 /\ m_maxels m = 5 /\ m_maxats m = 3 /\
  dget streq (sub (m_attord m) (lit "language")) (lit "references") = Some 2 /\
  dget streq (sub (m_attvals m) (siltag (lit "font"))) (lit "type") = Some [(lit "default", lit "1"); (lit "heading", lit "2"); (lit "emphasis", lit "3")].
Proof. eexists. split; [vm_compute; reflexivity|]. vm_compute. repeat split. Qed.
(** an attribute marked as METADATA and excluded by the metadata distinguishes all the same *)
Theorem C74_metadata_mark_refuted : exists ds items m,
  (exists b a, ds = b ++ AttlistDecl (lit "language") (lit "references") (lit "CDATA") :: CommentDecl (lit "@METADATA") :: a) /\
  item_key (lit "language") (lit "references") true items /\
  read_metadata T_ZoneTab.spc [] [] ds [lit "Asia/Calcutta, IN, 1, 1"] [] items = Ok m /\ is_dist m true (lit "language") (lit "references") = true.
Proof.
  exists ex_dtd, [mkItem (Some [lit "language"]) true [lit "references"]]. eexists. split; [|split; [|split; [vm_compute; reflexivity|vm_compute; reflexivity]]].
  - exists (firstn 4 ex_dtd), (skipn 6 ex_dtd). reflexivity.
  - eexists _, [lit "language"]. split; [now left|]. repeat split; now left.
Qed.
