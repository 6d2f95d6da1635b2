(** C67: a collation written as a simple list of items. *)
From Coq Require Import QArith Qcanon Sorting.Sorted.
From Verif Require Import Py PyFacts M_UnicodeSets P_UnicodeSets M_Collation P_Collation P_Collation2 T_Collation
  M_Tailor P_Tailor T_Tailor M_TailorQ T_Tailor3 M_Simple P_Simple P_Simple2 T_Tailor4 T_Simple T_Simple2 M_AsSimple.
Open Scope nat_scope.

(** * Specification *)
(** A line is a list of groups of items: the first item of a line differs from what is before at
    level 1, that of a group at level 2, all others at level 3 ([line_levels], C62). *)
Definition good_lines (lines : list (list (list pystr))) : Prop :=
  Forall (fun gs => gs <> [] /\ Forall (fun g => g <> []) gs) lines.
(** the first line has two items or more *)
Definition starts_wide (lines : list (list (list pystr))) : Prop :=
  match lines with ((_ :: _ :: _) :: _) :: _ | (_ :: _ :: _) :: _ => True | _ => False end.

(** * Proof: the parents in a chain *)
Section Chain.
  Variables (s : pystr) (l : list (pystr * nat)).
  Hypothesis ND : NoDup (s :: map fst l).
  Let es := linked s l.
  Lemma chain_get l1 x lv l2 : l = l1 ++ (x, lv) :: l2 ->
    dget streq es x = Some (TEl (last (map fst l1) s) lv 0%N [0] [] None None).
  Proof.
    intro E. apply (dget_NoDup_In _ streq_spec).
    - unfold dkeys, es. rewrite linked_keys. now inversion ND.
    - unfold es. rewrite E, linked_app. apply in_or_app. right. now left.
  Qed.
  Lemma chain_start : dget streq es s = None.
  Proof. apply (dget_None _ streq_spec). unfold dkeys, es. rewrite linked_keys. now inversion ND. Qed.

  (** what the loops find from item [p], the head of its line and of its group *)
  Definition at_item (n : nat) (p top second : pystr) : Prop :=
    up3 es n p = Some second /\ up1 es n second = Some top /\ up1 es n p = Some top /\ (dget streq es second = None -> top = second).
  Lemma up3_more es' n v r : up3 es' n v = Some r -> up3 es' (S n) v = Some r.
  Proof.
    revert v. induction n as [|n IH]; intros v H; [discriminate|]. cbn [up3] in H |- *.
    destruct (dget streq es' v) as [e|]; [|exact H]. destruct (Nat.eqb _ _); [|exact H]. apply IH, H.
  Qed.
  Lemma up1_more es' n v r : up1 es' n v = Some r -> up1 es' (S n) v = Some r.
  Proof.
    revert v. induction n as [|n IH]; intros v H; [discriminate|]. cbn [up1] in H |- *.
    destruct (dget streq es' v) as [e|]; [|exact H]. destruct (Nat.eqb _ _); [exact H|]. apply IH, H.
  Qed.
  Lemma at_more n m p t c : at_item n p t c -> n <= m -> at_item m p t c.
  Proof.
    intros A L. induction L as [|m _ (H1 & H2 & H3 & H4)]; [exact A|]. repeat split; auto using up3_more, up1_more.
  Qed.
  Lemma at_start : at_item 1 s s s.
  Proof. unfold at_item. cbn [up3 up1]. rewrite chain_start. auto. Qed.
  Lemma at_next n l1 x lv l2 t c : l = l1 ++ (x, lv) :: l2 -> at_item n (last (map fst l1) s) t c -> 1 <= lv <= 3 ->
    at_item (S n) x (if Nat.eqb lv 1 then x else t) (if Nat.eqb lv 3 then c else x).
  Proof.
    intros E (H1 & H2 & H3 & H4) L. pose proof (chain_get l1 x lv l2 E) as G. unfold at_item.
    destruct lv as [|[|[|[|lv]]]]; try lia; cbn [Nat.eqb].
    - assert (up1 es (S n) x = Some x) as U by (cbn [up1]; rewrite G; reflexivity).
      assert (up3 es (S n) x = Some x) as U3 by (cbn [up3]; rewrite G; reflexivity).
      rewrite U, U3. repeat split; auto.
    - assert (up1 es (S n) x = Some t) as U by (cbn [up1]; rewrite G; exact H3).
      assert (up3 es (S n) x = Some x) as U3 by (cbn [up3]; rewrite G; reflexivity).
      rewrite U, U3. repeat split; auto. intro X. congruence.
    - assert (up1 es (S n) x = Some t) as U by (cbn [up1]; rewrite G; exact H3).
      assert (up3 es (S n) x = Some c) as U3 by (cbn [up3]; rewrite G; exact H1).
      rewrite U, U3. repeat split; auto using up1_more.
  Qed.
  Lemma at_parents n p t c : at_item n p t c -> getparents es n p = Some (t, c).
  Proof.
    intros (H1 & H2 & _ & H4). unfold getparents. rewrite H1. destruct (dget streq es c) eqn:D; [now rewrite H2|].
    now rewrite (H4 eq_refl).
  Qed.

  (** ** the tree while the chain is walked *)
  Definition walk1 (st : tree * pystr * pystr) (p : pystr * nat) : tree * pystr * pystr :=
    let '(t, top, second) := st in
    let '(x, lv) := p in
    match lv with
    | 1 => (setdefault t x [], x, x)
    | 2 => (place2 t top x, top, x)
    | _ => (place3 t top second x, top, second)
    end.
  Variable np : pystr -> bool.
  Hypothesis NP : forall x, In x (s :: map fst l) -> np x = false.
  Variable fuel : nat.
  Hypothesis FU : length l < fuel.

  Lemma plant_next l1 x lv l2 n t top second : l = l1 ++ (x, lv) :: l2 -> at_item n (last (map fst l1) s) top second ->
    S n <= fuel -> 1 <= lv <= 3 ->
    plant es np fuel t x (TEl (last (map fst l1) s) lv 0%N [0] [] None None) =
      Some (let t' := fst (fst (walk1 (t, top, second) (x, lv))) in
            if dmem streq es (last (map fst l1) s) then t' else setdefault t' s []).
  Proof.
    intros E A F L. unfold plant. cbn [t_level t_base].
    assert (B : (if dmem streq es (last (map fst l1) s) then true else false) = false -> last (map fst l1) s = s).
    { destruct (dmem streq es (last (map fst l1) s)) eqn:D; [discriminate|]. intros _.
      destruct (@exists_last _ (s :: map fst l1)) as (q & y & Q); [discriminate|].
      destruct l1 as [|[y1 lv1] l1] using rev_ind; [reflexivity|].
      exfalso. rewrite map_app in D. cbn [map fst] in D. rewrite last_last in D.
      apply Bool.not_true_iff_false in D. apply D. apply (dmem_spec _ streq_spec). unfold dkeys, es. rewrite linked_keys, E, !map_app.
      apply in_or_app. left. apply in_or_app. right. now left. }
    assert (C : forall t', Some (if dmem streq es (last (map fst l1) s) then t'
              else if np (last (map fst l1) s) then place2 t' [] (last (map fst l1) s) else setdefault t' (last (map fst l1) s) []) =
            Some (if dmem streq es (last (map fst l1) s) then t' else setdefault t' s [])).
    { intro t'. destruct (dmem streq es (last (map fst l1) s)); [reflexivity|]. rewrite B by reflexivity.
      rewrite NP by now left. reflexivity. }
    destruct lv as [|[|[|[|lv]]]]; try lia; cbn [walk1 fst].
    - apply C.
    - pose proof (at_next n l1 x 2 l2 top second E A ltac:(lia)) as A'. cbn [Nat.eqb] in A'.
      rewrite (at_parents fuel x top x) by (eapply at_more; [exact A'|lia]).
      rewrite NP. + apply C. + right. rewrite E, map_app. apply in_or_app. right. now left.
    - rewrite (at_parents fuel _ top second) by (eapply at_more; [exact A|lia]). apply C.
  Qed.
  Lemma plant_rest : forall l2 l1 n t top second, l = l1 ++ l2 -> l1 <> [] -> n = S (length l1) ->
    at_item n (last (map fst l1) s) top second -> (forall p, In p l2 -> 1 <= snd p <= 3) ->
    plant_all es np fuel t (linked (last (map fst l1) s) l2) = Some (fst (fst (fold_left walk1 l2 (t, top, second)))).
  Proof.
    induction l2 as [|[x lv] l2 IH]; intros l1 n t top second E N1 En A LV; cbn [linked plant_all fold_left]; [reflexivity|].
    assert (S n <= fuel) as F. { rewrite E, app_length in FU. cbn [length] in FU. lia. }
    assert (L : 1 <= lv <= 3) by (apply (LV (x, lv)); now left).
    rewrite (plant_next l1 x lv l2 n t top second E A F L).
    assert (dmem streq es (last (map fst l1) s) = true) as ->.
    { apply (dmem_spec _ streq_spec). unfold dkeys, es. rewrite linked_keys, E, map_app. apply in_or_app. left.
      destruct (exists_last N1) as (q & [y ylv] & ->). rewrite map_app. cbn [map fst]. rewrite last_last. apply in_or_app. right. now left. }
    cbn [fst snd]. assert (last (map fst (l1 ++ [(x, lv)])) s = x) as Lx by (rewrite map_app; cbn [map fst]; apply last_last).
    pose proof (at_next n l1 x lv l2 top second E A L) as A'. rewrite <- Lx in A' at 1.
    specialize (IH (l1 ++ [(x, lv)]) (S n) (fst (fst (walk1 (t, top, second) (x, lv))))
      (if Nat.eqb lv 1 then x else top) (if Nat.eqb lv 3 then second else x)).
    rewrite Lx in IH. rewrite IH; clear IH.
    - f_equal. f_equal. f_equal. f_equal. destruct lv as [|[|[|[|lv]]]]; try lia; reflexivity.
    - rewrite <- app_assoc. exact E.
    - destruct l1; discriminate.
    - rewrite app_length. cbn. lia.
    - rewrite Lx in A'. exact A'.
    - intros p H. apply LV. now right.
  Qed.
End Chain.

Lemma nodup_app {A} (a b : list A) : NoDup (a ++ b) <-> NoDup a /\ NoDup b /\ forall x, In x a -> ~ In x b.
Proof.
  induction a as [|y a IH]; cbn [app].
  - split; [intro H; repeat split; [constructor|exact H|intros x []]|intros (_ & H & _); exact H].
  - split.
    + intro H. inversion H as [|? ? N H']; subst. apply IH in H' as (H1 & H2 & H3). repeat split; [|exact H2|].
      * constructor; [|exact H1]. intro X. apply N, in_or_app. now left.
      * intros x [<-|X]; [|now apply H3]. intro X. apply N, in_or_app. now right.
    + intros (H1 & H2 & H3). inversion H1 as [|? ? N H']; subst. constructor.
      * intro X. apply in_app_or in X as [X|X]; [contradiction|]. apply (H3 y); [now left|exact X].
      * apply IH. repeat split; auto. intros x X. apply H3. now right.
Qed.
Lemma NoDup_app_remove_l {A} (a b : list A) : NoDup (a ++ b) -> NoDup b.
Proof. intro H. now apply nodup_app in H. Qed.
Lemma NoDup_app_remove_r {A} (a b : list A) : NoDup (a ++ b) -> NoDup a.
Proof. intro H. now apply nodup_app in H. Qed.

(** ** the tree of the lines *)
Definition line_tree (gs : list (list pystr)) : pystr * list (pystr * list pystr) :=
  match gs with
  | (x :: r) :: gs' => (x, (match r with [] => [] | _ => [(x, r)] end) ++ map (fun g => (hd [] g, tl g)) gs')
  | _ => ([], [])
  end.
Lemma dset_last {V} (T : list (pystr * V)) k v v' : ~ In k (map fst T) -> dset streq (T ++ [(k, v)]) k v' = T ++ [(k, v')].
Proof.
  induction T as [|[a b] T IH]; intro N; cbn [app dset].
  - destruct (streq_spec k k); [reflexivity|contradiction].
  - destruct (streq_spec k a) as [->|_]; [exfalso; apply N; now left|]. rewrite IH; [reflexivity|]. intro H. apply N. now right.
Qed.
Lemma dget_last {V} (T : list (pystr * V)) k v : ~ In k (map fst T) -> dget streq (T ++ [(k, v)]) k = Some v.
Proof.
  induction T as [|[a b] T IH]; intro N; cbn [app dget].
  - destruct (streq_spec k k); [reflexivity|contradiction].
  - destruct (streq_spec k a) as [->|_]; [exfalso; apply N; now left|]. apply IH. intro H. apply N. now right.
Qed.
Lemma dset_new {V} (T : list (pystr * V)) k v : ~ In k (map fst T) -> dset streq T k v = T ++ [(k, v)].
Proof.
  induction T as [|[a b] T IH]; intro N; cbn [app dset]; [reflexivity|].
  destruct (streq_spec k a) as [->|_]; [exfalso; apply N; now left|]. rewrite IH; [reflexivity|]. intro H. apply N. now right.
Qed.
Lemma setdefault_new {V} (T : list (pystr * V)) k v : ~ In k (map fst T) -> setdefault T k v = T ++ [(k, v)].
Proof.
  intro N. unfold setdefault. destruct (dmem streq T k) eqn:D; [|now apply dset_new].
  exfalso. apply N. now apply (dmem_spec _ streq_spec) in D.
Qed.
Lemma setdefault_old {V} (T : list (pystr * V)) k v : In k (map fst T) -> setdefault T k v = T.
Proof. intro N. unfold setdefault. apply (dmem_spec _ streq_spec) in N. now rewrite N. Qed.

(** items of level 3 go to the last group of the last line *)
Lemma walk_thirds T top inner second : ~ In top (map fst T) -> ~ In second (map fst inner) ->
  forall r l0, fold_left walk1 (map (fun y => (y, 3)) r) (T ++ [(top, inner ++ [(second, l0)])], top, second) =
    (T ++ [(top, inner ++ [(second, l0 ++ r)])], top, second).
Proof.
  intros N1 N2. induction r as [|y r IH]; intro l0; cbn [map fold_left]; [now rewrite app_nil_r|].
  assert (walk1 (T ++ [(top, inner ++ [(second, l0)])], top, second) (y, 3) =
    (T ++ [(top, inner ++ [(second, l0 ++ [y])])], top, second)) as ->.
  { cbn [walk1]. unfold place3, got. rewrite dget_last, dset_last by exact N1. rewrite dget_last, dset_last by exact N2. reflexivity. }
  rewrite IH, <- app_assoc. reflexivity.
Qed.
Lemma walk_group T top inner second x r : ~ In top (map fst T) -> ~ In x (map fst inner) ->
  fold_left walk1 (group_levels 2 (x :: r)) (T ++ [(top, inner)], top, second) = (T ++ [(top, inner ++ [(x, r)])], top, x).
Proof.
  intros N1 N2. cbn [group_levels fold_left]. 
  assert (walk1 (T ++ [(top, inner)], top, second) (x, 2) = (T ++ [(top, inner ++ [(x, [])])], top, x)) as ->.
  { cbn [walk1]. unfold place2, got. rewrite dget_last, dset_last by exact N1. now rewrite setdefault_new. }
  rewrite walk_thirds by assumption. reflexivity.
Qed.
Lemma walk_groups T top : ~ In top (map fst T) -> forall gs inner second, Forall (fun g => g <> []) gs ->
  NoDup (map fst inner ++ map (hd []) gs) ->
  exists second', fold_left walk1 (flat_map (group_levels 2) gs) (T ++ [(top, inner)], top, second) =
    (T ++ [(top, inner ++ map (fun g => (hd [] g, tl g)) gs)], top, second').
Proof.
  intro N1. induction gs as [|[|x r] gs IH]; intros inner second F ND; cbn [flat_map map].
  - exists second. now rewrite app_nil_r.
  - inversion F; contradiction.
  - inversion F as [|? ? _ F']; subst. rewrite fold_left_app, walk_group; [|exact N1|].
    + destruct (IH (inner ++ [(x, r)]) x F') as (second' & E).
      * rewrite map_app, <- app_assoc. exact ND.
      * exists second'. rewrite E, <- app_assoc. reflexivity.
    + cbn [map hd] in ND. apply NoDup_remove_2 in ND. intro H. apply ND, in_or_app. now left.
Qed.
(** from a line that holds its first item *)
Lemma walk_line_rest T x r gs : ~ In x (map fst T) -> Forall (fun g => g <> []) gs -> NoDup (x :: map (hd []) gs) ->
  exists second, fold_left walk1 (map (fun y => (y, 3)) r ++ flat_map (group_levels 2) gs) (T ++ [(x, [])], x, x) =
    (T ++ [line_tree ((x :: r) :: gs)], x, second).
Proof.
  intros N F ND. rewrite fold_left_app. cbn [line_tree]. destruct r as [|y r].
  - cbn [map fold_left app]. destruct (walk_groups T x N gs [] x F) as (c & E); [now inversion ND|]. exists c. exact E.
  - cbn [map fold_left].
    assert (walk1 (T ++ [(x, [])], x, x) (y, 3) = (T ++ [(x, [] ++ [(x, [y])])], x, x)) as ->.
    { cbn [walk1]. unfold place3, got. rewrite dget_last, dset_last by exact N. reflexivity. }
    rewrite walk_thirds by (auto; intros []).
    destruct (walk_groups T x N gs [(x, y :: r)] x F ND) as (c & E). exists c. exact E.
Qed.
Lemma nodup_hds (gs : list (list pystr)) x r : Forall (fun g => g <> []) gs -> NoDup (map fst (line_levels 1 ((x :: r) :: gs))) ->
  NoDup (x :: map (hd []) gs).
Proof.
  intros F ND. cbn [line_levels group_levels app] in ND. cbn [map fst] in ND. rewrite map_app in ND.
  inversion ND as [|? ? Nx ND']; subst. apply NoDup_app_remove_l in ND'.
  assert (G : forall g, In g gs -> In (hd [] g) (map fst (group_levels 2 g))).
  { intros g Hg. rewrite Forall_forall in F. specialize (F g Hg). destruct g; [contradiction|]. now left. }
  constructor.
  - intro H. apply Nx, in_or_app. right. apply in_map_iff in H as (g & <- & Hg).
    specialize (G g Hg). apply in_map_iff in G as (p & E & Hp). apply in_map_iff. exists p. split; [exact E|]. apply in_flat_map. eauto.
  - clear Nx ND. induction gs as [|g gs IH]; [constructor|]. inversion F as [|? ? Ng F']; subst. cbn [map flat_map] in *.
    rewrite map_app in ND'. constructor.
    + intro H. apply in_map_iff in H as (g' & E & Hg'). destruct g as [|x0 g]; [contradiction|]. cbn [group_levels map fst app] in ND'.
      inversion ND' as [|? ? N _]; subst. apply N, in_or_app. right. cbn [hd] in E. rewrite <- E.
      specialize (G g' (or_intror Hg')). apply in_map_iff in G as (p & E' & Hp). apply in_map_iff. exists p. split; [exact E'|].
      apply in_flat_map. eauto.
    + apply IH; [exact F'|now apply NoDup_app_remove_l in ND'|]. intros g' Hg'. apply G. now right.
Qed.
Lemma walk_lines : forall lines T top second, good_lines lines ->
  NoDup (map fst T ++ map fst (flat_map (line_levels 1) lines)) ->
  fst (fst (fold_left walk1 (flat_map (line_levels 1) lines) (T, top, second))) = T ++ map line_tree lines.
Proof.
  induction lines as [|gs lines IH]; intros T top second G ND; cbn [flat_map map fold_left]; [now rewrite app_nil_r|].
  inversion G as [|? ? [Ng Fg] G']; subst. destruct gs as [|[|x r] gs]; [contradiction|inversion Fg; contradiction|].
  inversion Fg as [|? ? _ Fg']; subst. cbn [flat_map] in ND. rewrite map_app in ND.
  assert (Nx : ~ In x (map fst T)).
  { intro H. cbn [line_levels group_levels app map fst] in ND. apply NoDup_remove_2 in ND. apply ND, in_or_app. now left. }
  assert (NDl : NoDup (map fst (line_levels 1 ((x :: r) :: gs)))).
  { apply NoDup_app_remove_l in ND. eapply NoDup_app_remove_r. exact ND. }
  rewrite fold_left_app.
  assert (fold_left walk1 (line_levels 1 ((x :: r) :: gs)) (T, top, second) =
    fold_left walk1 (map (fun y => (y, 3)) r ++ flat_map (group_levels 2) gs) (T ++ [(x, [])], x, x)) as ->.
  { cbn [line_levels group_levels app fold_left walk1]. now rewrite setdefault_new. }
  destruct (walk_line_rest T x r gs Nx Fg' (nodup_hds gs x r Fg' NDl)) as (c & ->).
  rewrite IH; [|exact G'|].
  - rewrite <- app_assoc. reflexivity.
  - rewrite map_app. cbn [map fst line_tree]. rewrite <- app_assoc. cbn [app].
    apply nodup_app in ND as (N1 & N2 & N3). apply nodup_app in N2 as (_ & N4 & N5).
    assert (X : forall y, In y (map fst T) -> y <> x /\ ~ In y (map fst (flat_map (line_levels 1) lines))).
    { intros y Hy. split; [intros ->; contradiction|]. intro H. apply (N3 y Hy), in_or_app. now right. }
    apply nodup_app. repeat split; [exact N1| |].
    + constructor; [|exact N4]. apply N5. now left.
    + intros y Hy [<-|H]; [contradiction|]. now apply (X y Hy).
Qed.

(** ** the lines of the tree *)
Lemma join_slashed x r : join [47%N] (x :: r) = x ++ slashed r.
Proof. destruct r; [now rewrite app_nil_r|reflexivity]. Qed.
Lemma tree_line_ok gs : gs <> [] -> Forall (fun g => g <> []) gs -> NoDup (map (hd []) gs) ->
  tree_line (fst (line_tree gs)) (snd (line_tree gs)) = written gs.
Proof.
  intros N F ND. destruct gs as [|[|x r] gs]; [contradiction|inversion F; contradiction|].
  inversion F as [|? ? _ F']; subst. cbn [map hd] in ND. inversion ND as [|? ? Nx ND']; subst.
  cbn [line_tree fst snd]. unfold tree_line, written.
  assert (G : forall gs, ~ In x (map (hd []) gs) -> dget streq (map (fun g : list pystr => (hd [] g, tl g)) gs) x = None).
  { intros gs' H. apply (dget_None _ streq_spec). unfold dkeys. rewrite map_map. cbn [fst]. exact H. }
  assert (got ((match r with [] => [] | _ => [(x, r)] end) ++ map (fun g => (hd [] g, tl g)) gs) x = r) as ->.
  { unfold got. destruct r as [|y r]; cbn [app dget]; [now rewrite G|]. destruct (streq_spec x x); [reflexivity|contradiction]. }
  assert (flat_map (fun '(a, l) => if streq a x then [] else [32%N] ++ a ++ slashed l)
    ((match r with [] => [] | _ => [(x, r)] end) ++ map (fun g => (hd [] g, tl g)) gs) =
    flat_map (fun g => 32%N :: join [47%N] g) gs) as ->.
  { transitivity (flat_map (fun '(a, l) => if streq a x then [] else [32%N] ++ a ++ slashed l) (map (fun g => (hd [] g, tl g)) gs)).
    - destruct r as [|y r]; [reflexivity|]. cbn [app flat_map]. destruct (streq_spec x x); [reflexivity|contradiction].
    - clear - F' Nx. induction F' as [|g gs Ng F' IH]; [reflexivity|]. cbn [map flat_map]. destruct g as [|y g]; [contradiction|].
      cbn [hd tl]. destruct (streq_spec y x) as [->|_]; [exfalso; apply Nx; now left|]. rewrite join_slashed. cbn [app]. f_equal.
      f_equal. apply IH. intro H. apply Nx. now right. }
  cbn [map]. rewrite app_assoc, <- join_slashed. clear.
  generalize (join [47%N] (x :: r)). induction gs as [|g gs IH]; intro s; cbn [flat_map map]; [now rewrite app_nil_r|].
  change (join [32%N] (s :: join [47%N] g :: map (join [47%N]) gs)) with (s ++ [32%N] ++ join [32%N] (join [47%N] g :: map (join [47%N]) gs)).
  rewrite <- IH. reflexivity.
Qed.

(** * What the collation of a simple list is written as *)
Theorem C67_lines : forall np fuel lines s lv l, flat_map (line_levels 1) lines = (s, lv) :: l ->
  good_lines lines -> starts_wide lines -> NoDup (s :: map fst l) -> (forall x, In x (s :: map fst l) -> np x = false) ->
  length l < fuel ->
  as_simple (linked s l) np fuel (linked s l) = Some (join [10%N] (map written lines)).
Proof.
  intros np fuel lines s lv l E G SW ND NP FU.
  assert (LV : forall p, In p l -> 1 <= snd p <= 3).
  { intros p Hp. assert (In p (flat_map (line_levels 1) lines)) as H by (rewrite E; now right). clear - H.
    apply in_flat_map in H as (gs & _ & H). unfold line_levels in H. destruct gs as [|g gs]; [destruct H|].
    assert (GL : forall lv g p, 1 <= lv <= 3 -> In p (group_levels lv g) -> 1 <= snd p <= 3).
    { intros lv [|x r] q L X; [destruct X|]. destruct X as [<-|X]; [exact L|]. apply in_map_iff in X as (y & <- & _). cbn. lia. }
    apply in_app_or in H as [H|H]; [eapply GL; [|exact H]; lia|]. apply in_flat_map in H as (g' & _ & H). eapply GL; [|exact H]; lia. }
  destruct lines as [|gs lines]; [destruct SW|]. inversion G as [|? ? [Ng Fg] G']; subst.
  destruct gs as [|[|x r] gs]; [contradiction|inversion Fg; contradiction|]. inversion Fg as [|? ? _ Fg']; subst.
  assert (El : l = (map (fun y => (y, 3)) r ++ flat_map (group_levels 2) gs) ++ flat_map (line_levels 1) lines) by (now injection E).
  assert (x = s) by (now injection E). clear E. subst x.
  set (tail := map (fun y => (y, 3)) r ++ flat_map (group_levels 2) gs) in *.
  assert (Nt : exists y ylv t0, tail = (y, ylv) :: t0 /\ (ylv = 2 \/ ylv = 3)).
  { unfold tail. destruct r as [|y r]; [|cbn [map app]; eauto 6]. cbn [map app].
    destruct gs as [|[|y g] gs]; [destruct SW|inversion Fg' as [|? ? X _]; contradiction|]. cbn [flat_map group_levels app]. eauto 6. }
  destruct Nt as (y & ylv & t0 & Et & Hy).
  assert (ALL : plant_all (linked s l) np fuel [] (linked s l) = Some (map line_tree (((s :: r) :: gs) :: lines))).
  { assert (FIRST : plant (linked s l) np fuel [] y (TEl s ylv 0%N [0] [] None None) = Some (fst (fst (walk1 ([(s, [])], s, s) (y, ylv))))).
    { pose proof (plant_next s l ND np NP fuel FU [] y ylv (t0 ++ flat_map (line_levels 1) lines) 1 [] s s) as P.
      cbn [map last] in P. rewrite P; clear P.
      - assert (dmem streq (linked s l) s = false) as ->.
        { apply Bool.not_true_iff_false. intro D. apply (dmem_spec _ streq_spec) in D. unfold dkeys in D. rewrite linked_keys in D.
          inversion ND; contradiction. }
        f_equal. destruct Hy as [-> | ->]; cbn [walk1 fst]; unfold place2, place3, got; cbn [dget dset].
        + destruct (streq_spec s s) as [_|X]; [|contradiction]. apply setdefault_old. now left.
        + destruct (streq_spec s s) as [_|X]; [|contradiction]. apply setdefault_old. now left.
      - rewrite El, Et. reflexivity.
      - apply at_start. exact ND.
      - rewrite El, Et in FU. cbn [length app] in FU. lia.
      - destruct Hy as [-> | ->]; lia. }
    rewrite El at 2. rewrite Et. cbn [app linked plant_all]. rewrite FIRST.
    pose proof (plant_rest s l ND np NP fuel FU (t0 ++ flat_map (line_levels 1) lines) [(y, ylv)] 2
      (fst (fst (walk1 ([(s, [])], s, s) (y, ylv)))) s (if Nat.eqb ylv 3 then s else y)) as P.
    cbn [map fst last] in P. rewrite P; clear P.
    - assert ((fst (fst (walk1 ([(s, [])], s, s) (y, ylv))), s, if Nat.eqb ylv 3 then s else y) = walk1 ([(s, [])], s, s) (y, ylv)) as ->
        by (destruct Hy as [-> | ->]; reflexivity).
      change (fold_left walk1 (t0 ++ flat_map (line_levels 1) lines) (walk1 ([(s, [])], s, s) (y, ylv)))
        with (fold_left walk1 (((y, ylv) :: t0) ++ flat_map (line_levels 1) lines) ([] ++ [(s, [])], s, s)).
      rewrite <- Et, fold_left_app.
      assert (ND2 : NoDup (map fst (line_levels 1 ((s :: r) :: gs)) ++ map fst (flat_map (line_levels 1) lines))).
      { cbn [line_levels group_levels app map fst]. fold tail. rewrite El, map_app in ND. exact ND. }
      assert (ND3 := NoDup_app_remove_r _ _ ND2).
      destruct (walk_line_rest [] s r gs) as (c & Ec); [intros []|exact Fg'|now apply (nodup_hds gs s r)|].
      unfold tail. rewrite Ec. f_equal. rewrite walk_lines; [reflexivity|exact G'|].
      cbn [app map]. apply nodup_app in ND2 as (_ & N4 & N5). constructor; [|exact N4]. apply N5. now left.
    - rewrite El, Et. reflexivity.
    - discriminate.
    - reflexivity.
    - pose proof (at_next s l ND 1 [] y ylv (t0 ++ flat_map (line_levels 1) lines) s s) as Q. cbn [map last] in Q.
      assert ((if Nat.eqb ylv 1 then y else s) = s) as Q1 by (destruct Hy as [-> | ->]; reflexivity). rewrite Q1 in Q. apply Q.
      + rewrite El, Et. reflexivity. + apply at_start. exact ND. + destruct Hy as [-> | ->]; lia.
    - intros p Hp. apply LV. rewrite El, Et. now right. }
  unfold as_simple. rewrite ALL. f_equal. f_equal. rewrite map_map. apply map_ext_in. intros gs' Hgs.
  assert (G2 : good_lines (((s :: r) :: gs) :: lines)) by exact G.
  unfold good_lines in G2. rewrite Forall_forall in G2. destruct (G2 gs' Hgs) as [N F].
  rewrite (surjective_pairing (line_tree gs')). apply tree_line_ok; [exact N|exact F|].
  destruct gs' as [|[|x' r'] gs']; [contradiction|inversion F; contradiction|]. cbn [map hd].
  assert (F' : Forall (fun g => g <> []) gs') by now inversion F.
  apply (nodup_hds gs' x' r' F').
  assert (NDA : NoDup (map fst (flat_map (line_levels 1) (((s :: r) :: gs) :: lines)))).
  { cbn [flat_map line_levels group_levels app map fst]. fold tail. rewrite El in ND. exact ND. }
  clear - NDA Hgs. apply in_split in Hgs as (a & b & EQ). rewrite EQ in NDA. rewrite flat_map_app in NDA. cbn [flat_map] in NDA. rewrite !map_app in NDA.
  apply NoDup_app_remove_l in NDA. now apply NoDup_app_remove_r in NDA.
Qed.

(** ** with the default ordering *)
Lemma up3_bare es n : forall v, up3 (map bare_p es) n v = up3 es n v.
Proof.
  induction n as [|n IH]; intro v; [reflexivity|]. cbn [up3]. rewrite dget_map_bare.
  destruct (dget streq es v) as [e|]; cbn [option_map]; [|reflexivity]. cbn [bare t_level t_base]. now rewrite IH.
Qed.
Lemma up1_bare es n : forall v, up1 (map bare_p es) n v = up1 es n v.
Proof.
  induction n as [|n IH]; intro v; [reflexivity|]. cbn [up1]. rewrite dget_map_bare.
  destruct (dget streq es v) as [e|]; cbn [option_map]; [|reflexivity]. cbn [bare t_level t_base]. now rewrite IH.
Qed.
Lemma getparents_bare es n v : getparents (map bare_p es) n v = getparents es n v.
Proof.
  unfold getparents. rewrite up3_bare. destruct (up3 es n v) as [c|]; [|reflexivity]. rewrite dget_map_bare, up1_bare.
  now destruct (dget streq es c).
Qed.
Lemma dmem_bare es v : dmem streq (map bare_p es) v = dmem streq es v.
Proof. unfold dmem. rewrite dget_map_bare. now destruct (dget streq es v). Qed.
Lemma plant_all_bare es np fuel l : forall t, plant_all (map bare_p es) np fuel t (map bare_p l) = plant_all es np fuel t l.
Proof.
  induction l as [|[k e] l IH]; intro t; [reflexivity|]. cbn [map plant_all bare_p fst snd].
  assert (plant (map bare_p es) np fuel t k (bare e) = plant es np fuel t k e) as ->.
  { unfold plant. cbn [bare t_level t_base]. now rewrite !getparents_bare, dmem_bare. }
  destruct (plant es np fuel t k e); [apply IH|reflexivity].
Qed.
Lemma by_short_sorted {W} wcmp zero lt (st : tstate (W := W)) vs : lawful wcmp lt ->
  Forall2 (fun x v => short_at st x = Some v) (map fst (ts_elts st)) vs ->
  StronglySorted (fun v v' => sk_lt wcmp zero v (Some v') = Ok true) vs -> Forall (fun v => length v = 3) vs ->
  by_short wcmp zero st = ts_elts st.
Proof.
  intros LW F S L. unfold by_short. apply isort_id. revert vs F S L. generalize (ts_elts st).
  induction l as [|x xs IH]; intros vs F S L; [constructor|]. cbn [map] in F. inversion F as [|? v ? vs' Hx F']; subst.
  inversion S as [|? ? S' HF]; subst. inversion L as [|? ? Lv L']; subst. constructor; [now apply (IH vs')|].
  apply Forall_forall. intros y Hy. destruct (Forall2_in_l _ _ _ _ F' (in_map fst _ _ Hy)) as (v' & Hv' & Ky). rewrite Hx, Ky.
  rewrite Forall_forall in HF, L'. pose proof (HF v' Hv') as A. pose proof (L' v' Hv') as L2.
  destruct (sk_lt wcmp zero v' (Some v)) as [[|]|] eqn:B; try reflexivity.
  destruct (C06_strict_weak_order _ _ _ zero LW) as (IR & T & _).
  pose proof (T v v' v Lv L2 Lv A B) as X. rewrite IR in X by exact Lv. discriminate.
Qed.

(** the groups of a line as [convertSimple] reads it *)
Definition groups (ws : N -> bool) lower upper strict (v : pystr) : list (list pystr) :=
  map (slash_items ws lower upper strict) (space_items lower strict v).

(** A simple list that is made into a collation is written as the same list, with the case forms that
    were added. *)
Theorem C67_round_trip :
  forall W (wcmp : W -> W -> comparison) (lt : W -> W -> Prop) (zero one : W) bump drop ws lower upper d strict first_op fuel values s lv l vb,
    lawful wcmp lt -> (forall x y w, lt w (bump x y w)) ->
    listed ws lower upper strict values = (s, lv) :: l ->
    NoDup (s :: map fst l) -> ~ In [] (s :: map fst l) ->
    all_primary wcmp zero d lower strict values (s :: map fst l) ->
    In s (map fst d) -> dkey wcmp zero d s = Ok vb ->
    (forall j, j < 3 -> nth j vb [] <> [] /\ ~ lt (last (nth j vb []) zero) zero) ->
    first_op (map fst l) = None -> length l < fuel ->
    starts_wide (map (groups ws lower upper strict) values) ->
    exists st, convertSimple wcmp zero one bump drop ws lower upper d first_op fuel strict [] values = Ok st /\
      asSimple wcmp zero d fuel st = Some (join [10%N] (map (fun v => written (groups ws lower upper strict v)) values)).
Proof.
  intros W wcmp lt zero one bump drop ws lower upper d strict first_op fuel values s lv l vb LW UP EL ND NE AP Hs DK SV FO FU SW.
  assert (LV : forall p, In p l -> 1 <= snd p <= 3).
  { intros p Hp. apply (listed_levels ws lower upper strict values). rewrite EL. now right. }
  inversion ND as [|? ? NB ND1]; subst.
  pose proof (linked_plain d s l Hs ND1) as PT.
  assert (SO : sound zero lt vb) by (split; [eapply dkey_len; eassumption|exact SV]).
  destruct (@exists_last _ (nth 0 vb []) (proj1 (SV 0 ltac:(lia)))) as (pre & w & EP).
  destruct (chain_keys wcmp zero one bump drop d (linked s l) PT lt LW UP (fun k e H => proj1 (in_linked s l k e H)) pre w l s vb 0)
    as (vs & F2 & SS & _ & _); auto.
  { right. split; [|exact DK]. apply (dget_None _ streq_spec). unfold dkeys. now rewrite linked_keys. }
  assert (LE : length (linked s l) <= fuel).
  { rewrite <- (map_length fst (linked s l)), linked_keys, map_length. lia. }
  assert (AK : forall k, In k (map fst (linked s l)) -> exists v, tk wcmp zero bump drop d (num_befores (linked s l)) (length (linked s l)) (linked s l) k v).
  { intros k Hk. rewrite linked_keys in Hk. destruct (Forall2_in_l _ _ _ _ F2 Hk) as (v & _ & T). eauto. }
  assert (SV3 : Forall (fun v => length v = 3) vs).
  { apply Forall_forall. intros v Hv. apply In_nth_error in Hv as (i & Hi). clear - F2 Hi PT.
    induction F2 as [|x y xs ys H _ IH] in i, Hi |- *; [now destruct i|]. destruct i as [|i]; [|now apply (IH i)].
    injection Hi as ->. eapply tk_len; exact H. }
  assert (ST : StronglySorted (fun v v' => sk_lt wcmp zero v (Some v') = Ok true) vs).
  { apply (strong wcmp zero lt) in SS; [|exact LW]. now inversion SS. }
  destruct (set_keys_both wcmp zero one bump drop d (linked s l) PT false fuel (TSt (linked s l) [] false)) as (st1 & E1 & Sh1 & K1); auto.
  { unfold shape. cbn [ts_elts]. apply (elts0_eq wcmp zero d _ PT). }
  destruct (set_keys_both wcmp zero one bump drop d (linked s l) PT true fuel st1) as (st3 & E3 & Sh3 & K3); auto.
  assert (KS : forall st, shape (linked s l) (st : tstate (W := W)) -> map fst (ts_elts st) = map fst l).
  { intros st Sh. transitivity (map fst (linked s l)); [|apply linked_keys]. rewrite <- Sh, map_map. now apply map_ext; intros [k e]. }
  assert (BK : by_key wcmp zero st1 = map fst l).
  { unfold by_key. rewrite (KS st1 Sh1). apply isort_id.
    assert (F1 : Forall2 (fun x v => key_at st1 x = Some v) (map fst l) vs).
    { clear - F2 K1. induction F2; constructor; auto. now apply K1. }
    clear - F1 ST SV3 LW. revert vs F1 ST SV3. induction (map fst l) as [|x xs IH]; intros vs F S L; [constructor|].
    inversion F as [|? v ? vs' Hx F']; subst. inversion S as [|? ? S' HF]; subst. inversion L as [|? ? Lv L']; subst.
    constructor; [now apply (IH vs')|].
    apply Forall_forall. intros y Hy. destruct (Forall2_in_l _ _ _ _ F' Hy) as (v' & Hv' & Ky). rewrite Hx, Ky.
    rewrite Forall_forall in HF, L'. pose proof (HF v' Hv') as A. pose proof (L' v' Hv') as L2.
    destruct (sk_lt wcmp zero v' (Some v)) as [[|]|] eqn:B; try reflexivity.
    destruct (C06_strict_weak_order _ _ _ zero LW) as (IR & T & _).
    pose proof (T v v' v Lv L2 Lv A B) as X. rewrite IR in X by exact Lv. discriminate. }
  destruct (C62_chain W wcmp zero ws lower upper d strict [] values s lv l (law_eq _ _ LW) EL ND NE AP) as (b & EA).
  exists st3. split.
  - unfold convertSimple. rewrite EA. cbn [bind fst app]. rewrite E1. cbn [bind].
    unfold insert_before. rewrite BK, FO. cbn [bind]. exact E3.
  - unfold asSimple. rewrite (by_short_sorted wcmp zero lt st3 vs LW).
    + unfold as_simple. rewrite <- plant_all_bare. rewrite (Sh3 : map bare_p (ts_elts st3) = linked s l).
      assert (R : as_simple (linked s l) (np_of wcmp zero d) fuel (linked s l) = Some (join [10%N] (map written (map (groups ws lower upper strict) values)))).
      { apply (C67_lines (np_of wcmp zero d) fuel (map (groups ws lower upper strict) values) s lv l); auto.
        - rewrite <- EL. unfold listed. rewrite flat_map_concat_map, map_map, <- flat_map_concat_map. reflexivity.
        - apply Forall_map, Forall_forall. intros v _. unfold groups. split.
          + pose proof (space_nonempty lower strict v) as N. destruct (space_items lower strict v); [congruence|discriminate].
          + apply Forall_map, Forall_forall. intros it _. apply slash_nonempty.
        - intros x Hx. unfold np_of. rewrite (has_primary_spec wcmp zero (law_eq _ _ LW) d x); [reflexivity|]. now apply AP. }
      rewrite map_map in R. exact R.
    + rewrite (KS st3 Sh3). clear - F2 K3. induction F2; constructor; auto. now apply K3.
    + exact ST.
    + exact SV3.
Qed.

(** Read again (strictly), what was written gives the same items at the same levels. *)
Definition clear_group (ws : N -> bool) (lower upper : pystr -> pystr) (g : list pystr) : Prop :=
  Forall (fun x => plain_item ws x /\ ~ In 10%N x) g /\
  (length g <> 1 \/ (length (hd [] g) = 1 /\ upper (hd [] g) = lower (hd [] g))).
Lemma clear_line ws lower upper gs : gs <> [] -> Forall (fun g => g <> [] /\ clear_group ws lower upper g) gs ->
  groups ws lower upper true (written gs) = gs.
Proof.
  intros N F. rewrite Forall_forall in F. unfold groups. rewrite C62_reads; [|exact N| |now left].
  - transitivity (map (fun g => g) gs); [|apply map_id]. apply map_ext_in. intros g Hg. destruct (F g Hg) as (Ng & P & C).
    destruct g as [|x r]; [contradiction|].
    assert (Pl : Forall (plain_item ws) (x :: r)) by (eapply Forall_impl; [|exact P]; cbn beta; tauto).
    destruct (C62_group ws lower upper true (x :: r) x r eq_refl Pl) as (G1 & _ & _ & _ & G5 & _).
    destruct r as [|y r]; [|apply G5; [discriminate|reflexivity]].
    destruct C as [C|[C1 C2]]; [exfalso; now apply C|]. now apply G1.
  - intros g Hg. destruct (F g Hg) as (Ng & P & C). split; [exact Ng|]. eapply Forall_impl; [|exact P]. cbn beta. tauto.
Qed.
Lemma written_no c gs : c <> 32%N -> c <> 47%N -> Forall (Forall (fun x : pystr => ~ In c x)) gs -> ~ In c (written gs).
Proof.
  intros N1 N2 F. unfold written. apply join_no; [exact N1|]. apply Forall_map. eapply Forall_impl; [|exact F].
  intros g Hg. now apply join_no.
Qed.
Theorem C67_read_again : forall ws lower upper strict values, values <> [] ->
  (forall v, In v values -> Forall (clear_group ws lower upper) (groups ws lower upper strict v)) ->
  let out := join [10%N] (map (fun v => written (groups ws lower upper strict v)) values) in
  listed ws lower upper true (split_on 10%N out) = listed ws lower upper strict values.
Proof.
  intros ws lower upper strict values N H out. unfold out. rewrite split_join.
  - unfold listed. rewrite flat_map_concat_map, map_map, flat_map_concat_map. f_equal. apply map_ext_in. intros v Hv.
    f_equal. apply (clear_line ws lower upper (groups ws lower upper strict v)).
    + unfold groups. pose proof (space_nonempty lower strict v) as X. destruct (space_items lower strict v); [congruence|discriminate].
    + apply Forall_forall. intros g Hg. specialize (H v Hv). rewrite Forall_forall in H. split; [|now apply H].
      unfold groups in Hg. apply in_map_iff in Hg as (it & <- & _). apply slash_nonempty.
  - destruct values; [contradiction|discriminate].
  - apply Forall_map, Forall_forall. intros v Hv. apply written_no; try discriminate.
    eapply Forall_impl; [|exact (H v Hv)]. intros g [P _]. eapply Forall_impl; [|exact P]. cbn beta. tauto.
Qed.

(** * Any collation *)
(** the items of a text of lines *)
Definition items_of (out : pystr) : list pystr := flat_map (split_on 47%N) (flat_map (split_on 32%N) (split_on 10%N out)).
Definition simple_text (x : pystr) : Prop := ~ In 10%N x /\ ~ In 32%N x /\ ~ In 47%N x.
(** following bases ends *)
Definition bases_end (elts : list (pystr * tel)) (bound : nat) : Prop :=
  exists rank : pystr -> nat, (forall k e, dget streq elts k = Some e -> rank (t_base e) < rank k) /\ forall x, rank x < bound.

Theorem C67_ends : forall elts np fuel ordered, bases_end elts fuel -> exists out, as_simple elts np fuel ordered = Some out.
Proof.
  intros elts np fuel ordered (rank & R & B).
  assert (U3 : forall n v, rank v < n -> exists r, up3 elts n v = Some r).
  { induction n as [|n IH]; intros v L; [lia|]. cbn [up3]. destruct (dget streq elts v) as [e|] eqn:D; [|eauto].
    destruct (Nat.eqb _ _); [|eauto]. apply IH. specialize (R v e D). lia. }
  assert (U1 : forall n v, rank v < n -> exists r, up1 elts n v = Some r).
  { induction n as [|n IH]; intros v L; [lia|]. cbn [up1]. destruct (dget streq elts v) as [e|] eqn:D; [|eauto].
    destruct (Nat.eqb _ _); [eauto|]. apply IH. specialize (R v e D). lia. }
  assert (G : forall v, exists p, getparents elts fuel v = Some p).
  { intro v. unfold getparents. destruct (U3 fuel v (B v)) as (c & ->). destruct (dget streq elts c); [|eauto].
    destruct (U1 fuel c (B c)) as (top & ->). eauto. }
  assert (P : forall l t, exists t', plant_all elts np fuel t l = Some t').
  { induction l as [|[k e] l IH]; intro t; cbn [plant_all]; [eauto|].
    assert (exists t', plant elts np fuel t k e = Some t') as (t' & ->); [|apply IH].
    unfold plant. destruct (t_level e) as [|[|[|[|n]]]]; eauto.
    - destruct (G k) as ((a & b) & ->). eauto.
    - destruct (G (t_base e)) as ((a & b) & ->). eauto. }
  unfold as_simple. destruct (P ordered []) as (t & ->). eauto.
Qed.

(** ** the text of a tree *)
Definition line_groups (k : pystr) (v : list (pystr * list pystr)) : list (list pystr) :=
  (k :: got v k) :: map (fun p => fst p :: snd p) (filter (fun p => negb (streq (fst p) k)) v).
Lemma tree_line_written k v : tree_line k v = written (line_groups k v).
Proof.
  unfold tree_line, written, line_groups. cbn [map]. rewrite app_assoc, <- join_slashed.
  generalize (join [47%N] (k :: got v k)). induction v as [|[a l] v IH]; intro s; cbn [flat_map filter map]; [now rewrite app_nil_r|].
  cbn [fst]. destruct (streq a k) eqn:E; cbn [negb app]; [apply IH|]. cbn [map fst snd].
  rewrite join_slashed.
  change (join [32%N] (s :: (a ++ slashed l) :: map (join [47%N]) (map (fun p => fst p :: snd p) (filter (fun p => negb (streq (fst p) k)) v))))
    with (s ++ [32%N] ++ join [32%N] ((a ++ slashed l) :: map (join [47%N]) (map (fun p => fst p :: snd p) (filter (fun p => negb (streq (fst p) k)) v)))).
  rewrite <- IH. cbn [app]. now rewrite <- app_assoc.
Qed.
Lemma items_written gs : gs <> [] -> Forall (fun g => g <> [] /\ Forall simple_text g) gs ->
  flat_map (split_on 47%N) (split_on 32%N (written gs)) = concat gs.
Proof.
  intros N F. unfold written. rewrite split_join.
  - rewrite flat_map_concat_map, map_map. f_equal. transitivity (map (fun g => g) gs); [|apply map_id].
    apply map_ext_in. intros g Hg. rewrite Forall_forall in F. destruct (F g Hg) as [Ng P]. apply split_join; [exact Ng|].
    eapply Forall_impl; [|exact P]. intros x (_ & _ & X). exact X.
  - destruct gs; [contradiction|discriminate].
  - apply Forall_map. eapply Forall_impl; [|exact F]. intros g [_ P]. apply join_no; [discriminate|].
    eapply Forall_impl; [|exact P]. intros x (_ & X & _). exact X.
Qed.
(** all strings of a tree *)
Definition only (P : pystr -> Prop) (t : tree) : Prop :=
  Forall (fun p => P (fst p) /\ Forall (fun q => P (fst q) /\ Forall P (snd q)) (snd p)) t.
Lemma got_In {V} (d : list (pystr * list V)) k : got d k = [] \/ In (k, got d k) d.
Proof. unfold got. destruct (dget streq d k) as [v|] eqn:E; [right; eapply (dget_In _ streq_spec); exact E|now left]. Qed.
Lemma only_groups (P : pystr -> Prop) k v : P k -> Forall (fun q => P (fst q) /\ Forall P (snd q)) v -> Forall (Forall P) (line_groups k v).
Proof.
  intros Pk F. assert (F' := F). rewrite Forall_forall in F. constructor.
  - constructor; [exact Pk|]. destruct (got_In v k) as [->|H]; [constructor|]. apply F in H. apply H.
  - apply Forall_map, Forall_forall. intros q Hq. apply filter_In in Hq as [Hq _]. apply F in Hq as [H1 H2]. now constructor.
Qed.
Lemma items_tree t : t <> [] -> only simple_text t ->
  items_of (join [10%N] (map (fun '(k, v) => tree_line k v) t)) = flat_map (fun p => concat (line_groups (fst p) (snd p))) t.
Proof.
  intros N O. unfold items_of. rewrite split_join.
  - assert (FM : forall l : list pystr, flat_map (split_on 47%N) (flat_map (split_on 32%N) l) = flat_map (fun x => flat_map (split_on 47%N) (split_on 32%N x)) l).
    { induction l as [|x l IH]; [reflexivity|]. cbn [flat_map]. now rewrite flat_map_app, IH. }
    rewrite FM. clear N. induction O as [|[k v] t0 [H1 H2] _ IH]; [reflexivity|]. cbn [map flat_map fst snd] in *.
    assert (E : flat_map (split_on 47%N) (split_on 32%N (tree_line k v)) = concat (line_groups k v)).
    { rewrite tree_line_written. apply items_written; [discriminate|]. apply Forall_forall. intros g Hg.
      pose proof (only_groups simple_text k v H1 H2) as G. rewrite Forall_forall in G. split; [|now apply G].
      destruct Hg as [<-|Hg]; [discriminate|]. apply in_map_iff in Hg as (q & <- & _). discriminate. }
    now rewrite E, IH.
  - destruct t; [contradiction|discriminate].
  - apply Forall_map. eapply Forall_impl; [|exact O]. intros [k v] [H1 H2]. rewrite tree_line_written. cbn [fst snd] in *.
    apply written_no; try discriminate. pose proof (only_groups simple_text k v H1 H2) as G. eapply Forall_impl; [|exact G].
    intros g Hg. eapply Forall_impl; [|exact Hg]. intros x X. apply X.
Qed.

(** ** what gets into the tree *)
Definition appears (t : tree) (x : pystr) : Prop :=
  exists top v, dget streq t top = Some v /\ (x = top \/ exists a l, dget streq v a = Some l /\ (x = a \/ In x l)).
Definition inside (v v' : list (pystr * list pystr)) : Prop :=
  forall a l, dget streq v a = Some l -> exists l', dget streq v' a = Some l' /\ incl l l'.
Definition grows (t t' : tree) : Prop := forall top v, dget streq t top = Some v -> exists v', dget streq t' top = Some v' /\ inside v v'.
Lemma grows_refl t : grows t t.
Proof. intros top v H. exists v. split; [exact H|]. intros a l Hl. exists l. split; [exact Hl|apply incl_refl]. Qed.
Lemma grows_trans t1 t2 t3 : grows t1 t2 -> grows t2 t3 -> grows t1 t3.
Proof.
  intros G1 G2 top v H. destruct (G1 top v H) as (v2 & H2 & I2). destruct (G2 top v2 H2) as (v3 & H3 & I3).
  exists v3. split; [exact H3|]. intros a l Hl. destruct (I2 a l Hl) as (l2 & D2 & J2). destruct (I3 a l2 D2) as (l3 & D3 & J3).
  exists l3. split; [exact D3|]. eapply incl_tran; eassumption.
Qed.
Lemma appears_grows t t' x : grows t t' -> appears t x -> appears t' x.
Proof.
  intros G (top & v & H & C). destruct (G top v H) as (v' & H' & I). exists top, v'. split; [exact H'|].
  destruct C as [C|(a & l & Hl & C)]; [now left|right]. destruct (I a l Hl) as (l' & Hl' & J). exists a, l'. split; [exact Hl'|].
  destruct C as [C|C]; [now left|right; now apply J].
Qed.
Lemma inside_refl v : inside v v.
Proof. intros a l H. exists l. split; [exact H|apply incl_refl]. Qed.
Lemma grows_dset t top v' : inside (got t top) v' -> grows t (dset streq t top v').
Proof.
  intros I k v H. rewrite (dget_dset _ streq_spec). destruct (streq_spec top k) as [->|N].
  - destruct (streq_spec k k) as [_|X]; [|contradiction]. exists v'. split; [reflexivity|].
    assert (got t k = v) as <- by (unfold got; now rewrite H). exact I.
  - destruct (streq_spec k top) as [->|_]; [contradiction|]. exists v. split; [exact H|apply inside_refl].
Qed.
Lemma inside_dset v a l : incl (got v a) l -> inside v (dset streq v a l).
Proof.
  intros I k l0 H. rewrite (dget_dset _ streq_spec). destruct (streq_spec k a) as [->|N].
  - exists l. split; [reflexivity|]. assert (got v a = l0) as <- by (unfold got; now rewrite H). exact I.
  - exists l0. split; [exact H|apply incl_refl].
Qed.
Lemma setdefault_get {V} (d : list (pystr * V)) k v k' : dget streq (setdefault d k v) k' =
  match dget streq d k' with Some x => Some x | None => if streq k' k then Some v else None end.
Proof.
  unfold setdefault. destruct (dmem streq d k) eqn:D.
  - destruct (dget streq d k') eqn:E; [reflexivity|]. destruct (streq_spec k' k) as [->|_]; [|reflexivity].
    unfold dmem in D. rewrite E in D. discriminate.
  - rewrite (dget_dset _ streq_spec). destruct (streq_spec k' k) as [->|_]; [|now destruct (dget streq d k')].
    unfold dmem in D. now destruct (dget streq d k).
Qed.
Lemma grows_setdefault t k : grows t (setdefault t k []) /\ appears (setdefault t k []) k.
Proof.
  split.
  - intros top v H. rewrite setdefault_get, H. exists v. split; [reflexivity|apply inside_refl].
  - destruct (dget streq (setdefault t k []) k) as [v|] eqn:E; [exists k, v; auto|].
    rewrite setdefault_get in E. destruct (dget streq t k); [discriminate|]. destruct (streq_spec k k); [discriminate|contradiction].
Qed.
Lemma grows_place2 t top c : grows t (place2 t top c) /\ appears (place2 t top c) c.
Proof.
  unfold place2. split.
  - apply grows_dset. intros a l H. rewrite setdefault_get, H. exists l. split; [reflexivity|apply incl_refl].
  - exists top, (setdefault (got t top) c []). rewrite (dget_dset_same _ streq_spec). split; [reflexivity|right].
    destruct (dget streq (setdefault (got t top) c []) c) as [l|] eqn:E; [exists c, l; auto|].
    rewrite setdefault_get in E. destruct (dget streq (got t top) c); [discriminate|]. destruct (streq_spec c c); [discriminate|contradiction].
Qed.
Lemma grows_place3 t top c k : grows t (place3 t top c k) /\ appears (place3 t top c k) k.
Proof.
  unfold place3. split.
  - apply grows_dset, inside_dset. intros x H. apply in_or_app. now left.
  - exists top, (dset streq (got t top) c (got (got t top) c ++ [k])). rewrite (dget_dset_same _ streq_spec). split; [reflexivity|right].
    exists c, (got (got t top) c ++ [k]). rewrite (dget_dset_same _ streq_spec). split; [reflexivity|right]. apply in_or_app. right. now left.
Qed.

Section Any.
  Variables (elts : list (pystr * tel)) (np : pystr -> bool) (fuel : nat).
  Lemma getparents_self k e top second : dget streq elts k = Some e -> t_level e = 2 -> getparents elts fuel k = Some (top, second) -> second = k.
  Proof.
    intros D L. unfold getparents. destruct fuel as [|f]; [discriminate|]. cbn [up3]. rewrite D, L. cbn [Nat.eqb]. rewrite D.
    destruct (up1 elts (S f) k); [|discriminate]. intro H. now injection H.
  Qed.
  Lemma plant_appears t k e t' : dget streq elts k = Some e -> plant elts np fuel t k e = Some t' ->
    grows t t' /\ (1 <= t_level e <= 3 -> appears t' k) /\ (dget streq elts (t_base e) = None -> appears t' (t_base e)).
  Proof.
    intros D P. unfold plant in P.
    assert (X : exists t1, (match t_level e with
      | 3 => match getparents elts fuel (t_base e) with Some (top, second) => Some (place3 t top second k) | None => None end
      | 2 => match getparents elts fuel k with Some (top, second) => Some (place2 t (if np k then [] else top) second) | None => None end
      | 1 => Some (setdefault t k [])
      | _ => Some t end) = Some t1 /\
      t' = if dmem streq elts (t_base e) then t1 else if np (t_base e) then place2 t1 [] (t_base e) else setdefault t1 (t_base e) []).
    { destruct (match t_level e with 3 => _ | 2 => _ | 1 => _ | _ => _ end) as [t1|]; [|discriminate]. injection P as <-. eauto. }
    destruct X as (t1 & E1 & ->). clear P.
    assert (G1 : grows t t1 /\ (1 <= t_level e <= 3 -> appears t1 k)).
    { destruct (t_level e) as [|[|[|[|n]]]] eqn:L.
      - injection E1 as <-. split; [apply grows_refl|lia].
      - injection E1 as <-. destruct (grows_setdefault t k). auto.
      - destruct (getparents elts fuel k) as [[a b]|] eqn:G; [|discriminate]. injection E1 as <-.
        apply (getparents_self k e) in G as ->; [|exact D|exact L]. destruct (grows_place2 t (if np k then [] else a) k). auto.
      - destruct (getparents elts fuel (t_base e)) as [[a b]|] eqn:G; [|discriminate]. injection E1 as <-.
        destruct (grows_place3 t a b k). auto.
      - injection E1 as <-. split; [apply grows_refl|lia]. }
    destruct G1 as [G1 A1]. unfold dmem. destruct (dget streq elts (t_base e)) as [b|].
    - repeat split; auto. intro H. discriminate H.
    - destruct (np (t_base e)).
      + destruct (grows_place2 t1 [] (t_base e)) as [G2 A2]. repeat split; auto; [eapply grows_trans; eassumption|].
        intro L. eapply appears_grows; [exact G2|auto].
      + destruct (grows_setdefault t1 (t_base e)) as [G2 A2]. repeat split; auto; [eapply grows_trans; eassumption|].
        intro L. eapply appears_grows; [exact G2|auto].
  Qed.
  Lemma plant_all_appears l : forall t t', (forall k e, In (k, e) l -> dget streq elts k = Some e) -> plant_all elts np fuel t l = Some t' ->
    grows t t' /\ forall k e, In (k, e) l -> (1 <= t_level e <= 3 -> appears t' k) /\ (dget streq elts (t_base e) = None -> appears t' (t_base e)).
  Proof.
    induction l as [|[k e] l IH]; intros t t' H P; cbn [plant_all] in P.
    - injection P as <-. split; [apply grows_refl|]. intros k e [].
    - destruct (plant elts np fuel t k e) as [t1|] eqn:E; [|discriminate].
      destruct (plant_appears t k e t1 (H k e (or_introl eq_refl)) E) as (G1 & A1 & B1).
      destruct (IH t1 t') as (G2 & A2); [intros k' e' X; apply H; now right|exact P|].
      split; [eapply grows_trans; eassumption|]. intros k' e' [X|X]; [|now apply A2]. injection X as <- <-.
      split; intro Y; (eapply appears_grows; [exact G2|auto]).
  Qed.

  (** only what is in the collation *)
  Definition known_text (x : pystr) : Prop := x = [] \/ exists k e, In (k, e) elts /\ (x = k \/ x = t_base e).
  Lemma known_base_of v e : dget streq elts v = Some e -> known_text (t_base e).
  Proof. intro D. apply (dget_In _ streq_spec) in D. right. eauto 6. Qed.
  Lemma up3_known n : forall v r, known_text v -> up3 elts n v = Some r -> known_text r.
  Proof.
    induction n as [|n IH]; intros v r K H; [discriminate|]. cbn [up3] in H. destruct (dget streq elts v) as [e|] eqn:D; [|congruence].
    destruct (Nat.eqb _ _); [|congruence]. eapply IH; [|exact H]. eapply known_base_of; exact D.
  Qed.
  Lemma up1_known n : forall v r, known_text v -> up1 elts n v = Some r -> known_text r.
  Proof.
    induction n as [|n IH]; intros v r K H; [discriminate|]. cbn [up1] in H. destruct (dget streq elts v) as [e|] eqn:D; [|congruence].
    destruct (Nat.eqb _ _); [congruence|]. eapply IH; [|exact H]. eapply known_base_of; exact D.
  Qed.
  Lemma getparents_known v a b : known_text v -> getparents elts fuel v = Some (a, b) -> known_text a /\ known_text b.
  Proof.
    intros K H. unfold getparents in H. destruct (up3 elts fuel v) as [c|] eqn:E; [|discriminate]. apply up3_known in E; [|exact K].
    destruct (dget streq elts c); [|injection H as <- <-; auto]. destruct (up1 elts fuel c) as [tp|] eqn:E1; [|discriminate].
    injection H as <- <-. split; [eapply up1_known; eassumption|exact E].
  Qed.
  Lemma Forall_dset {V} (Q : pystr * V -> Prop) (t : list (pystr * V)) k v : Forall Q t -> Q (k, v) -> Forall Q (dset streq t k v).
  Proof.
    intros F H. induction F as [|[a b] t H0 F IH]; cbn [dset]; [now constructor|]. destruct (streq_spec k a) as [->|_]; now constructor.
  Qed.
  Lemma only_got (P : pystr -> Prop) t k : only P t -> Forall (fun q => P (fst q) /\ Forall P (snd q)) (got t k).
  Proof. intro O. destruct (got_In t k) as [->|H]; [constructor|]. unfold only in O. rewrite Forall_forall in O. apply O in H. apply H. Qed.
  Lemma only_setdefault (P : pystr -> Prop) t k : only P t -> P k -> only P (setdefault t k []).
  Proof. intros O H. unfold setdefault. destruct (dmem streq t k); [exact O|]. apply Forall_dset; [exact O|]. cbn. auto. Qed.
  Lemma only_place2 (P : pystr -> Prop) t a b : only P t -> P a -> P b -> only P (place2 t a b).
  Proof.
    intros O Ha Hb. apply Forall_dset; [exact O|]. cbn [fst snd]. split; [exact Ha|]. pose proof (only_got P t a O) as G.
    unfold setdefault. destruct (dmem streq (got t a) b); [exact G|]. apply Forall_dset; [exact G|]. cbn. auto.
  Qed.
  Lemma only_place3 (P : pystr -> Prop) t a b k : only P t -> P a -> P b -> P k -> only P (place3 t a b k).
  Proof.
    intros O Ha Hb Hk. apply Forall_dset; [exact O|]. cbn [fst snd]. split; [exact Ha|]. pose proof (only_got P t a O) as G.
    apply Forall_dset; [exact G|]. cbn [fst snd]. split; [exact Hb|]. apply Forall_app. split; [|auto].
    destruct (got_In (got t a) b) as [->|H]; [constructor|]. rewrite Forall_forall in G. apply G in H. apply H.
  Qed.
  Lemma plant_only t k e t' : In (k, e) elts -> only known_text t -> plant elts np fuel t k e = Some t' -> only known_text t'.
  Proof.
    intros Hin O P. assert (Kk : known_text k) by (right; eauto 6). assert (Kb : known_text (t_base e)) by (right; eauto 6).
    assert (K0 : known_text []) by now left.
    unfold plant in P. destruct (t_level e) as [|[|[|[|n]]]]; cbn iota in P;
      repeat match type of P with
      | context [getparents elts fuel ?v] => let G := fresh "G" in destruct (getparents elts fuel v) as [[a b]|] eqn:G; [|discriminate P]; apply getparents_known in G as [Ka Kb2]; [|assumption]
      end;
      injection P as <-; destruct (dmem streq elts (t_base e)); try destruct (np (t_base e)); try destruct (np k);
      repeat first [apply only_setdefault | apply only_place2 | apply only_place3]; auto.
  Qed.
  Lemma plant_all_only l : forall t t', incl l elts -> only known_text t -> plant_all elts np fuel t l = Some t' -> only known_text t'.
  Proof.
    induction l as [|[k e] l IH]; intros t t' I O P; cbn [plant_all] in P; [congruence|].
    destruct (plant elts np fuel t k e) as [t1|] eqn:E; [|discriminate]. apply (IH t1); [intros x X; apply I; now right| |exact P].
    eapply plant_only; [|exact O|exact E]. apply I. now left.
  Qed.
End Any.

(** Every element of the levels 1 to 3, and every base that is not tailored itself, is written; nothing else is. *)
Theorem C67_complete : forall elts np fuel ordered out, NoDup (map fst elts) -> Permutation elts ordered ->
  (forall k e, In (k, e) elts -> simple_text k /\ simple_text (t_base e)) ->
  as_simple elts np fuel ordered = Some out ->
  (forall k e, In (k, e) elts -> (1 <= t_level e <= 3 -> In k (items_of out)) /\
     (~ In (t_base e) (map fst elts) -> In (t_base e) (items_of out))) /\
  (forall x, In x (items_of out) -> x <> [] -> exists k e, In (k, e) elts /\ (x = k \/ x = t_base e)).
Proof.
  intros elts np fuel ordered out ND PM ST E. unfold as_simple in E.
  destruct (plant_all elts np fuel [] ordered) as [t|] eqn:P; [|discriminate]. injection E as <-.
  assert (D : forall k e, In (k, e) elts -> dget streq elts k = Some e) by (intros k e H; now apply (dget_NoDup_In _ streq_spec)).
  assert (IO : forall p, In p ordered <-> In p elts) by (intro p; split; apply Permutation_in; [apply Permutation_sym|]; exact PM).
  destruct (plant_all_appears elts np fuel ordered [] t) as (_ & A); [intros k e H; apply D; now apply IO|exact P|].
  assert (O : only (known_text elts) t).
  { eapply plant_all_only; [|constructor|exact P]. intros x H. now apply IO. }
  assert (OS : only simple_text t).
  { eapply Forall_impl; [|exact O]. assert (K : forall x, known_text elts x -> simple_text x).
    { intros x [->|(k & e & H & [->| ->])]; [repeat split; intros []|apply (ST k e H)|apply (ST k e H)]. }
    intros [k v] [H1 H2]. split; [now apply K|]. eapply Forall_impl; [|exact H2]. intros [a l] [H3 H4]. split; [now apply K|].
    eapply Forall_impl; [|exact H4]. exact K. }
  assert (W : forall x, appears t x -> In x (items_of (join [10%N] (map (fun '(k, v) => tree_line k v) t)))).
  { intros x (top & v & H & C). rewrite items_tree; [|intros ->; discriminate H|exact OS].
    apply in_flat_map. exists (top, v). split; [eapply (dget_In _ streq_spec); exact H|]. cbn [fst snd]. unfold line_groups. cbn [concat].
    destruct C as [->|(a & l & Hl & C)]; [apply in_or_app; left; now left|].
    destruct (streq_spec a top) as [->|N].
    - apply in_or_app. left. destruct C as [->|C]; [now left|right]. unfold got. now rewrite Hl.
    - apply in_or_app. right. apply in_concat. exists (a :: l). split; [|destruct C as [->|C]; [now left|now right]].
      apply in_map_iff. exists (a, l). split; [reflexivity|]. apply filter_In. split; [eapply (dget_In _ streq_spec); exact Hl|].
      cbn [fst]. destruct (streq_spec a top); [contradiction|reflexivity]. }
  split.
  - intros k e H. destruct (A k e) as [A1 A2]; [now apply IO|]. split; [auto|]. intro N. apply W, A2. now apply (dget_None _ streq_spec).
  - intros x Hx Nx. destruct t as [|p t].
    + exfalso. cbn in Hx. destruct Hx as [<-|[]]. now apply Nx.
    + rewrite items_tree in Hx; [|discriminate|exact OS]. apply in_flat_map in Hx as ([k v] & Hp & Hx). cbn [fst snd] in Hx.
      unfold only in O. rewrite Forall_forall in O. destruct (O _ Hp) as [K1 K2]. cbn [fst snd] in *.
      pose proof (only_groups (known_text elts) k v K1 K2) as G. apply in_concat in Hx as (g & Hg & Hx).
      rewrite Forall_forall in G. specialize (G g Hg). rewrite Forall_forall in G. destruct (G x Hx) as [->|K]; [contradiction|exact K].
Qed.

(** * Concrete cases *)
Definition ex_none : list pystr -> option (nat * nat) := fun _ => None.
Definition ex_simple values : option pystr :=
  match ex_convert ex_none true values with
  | Ok st => asSimple Qccompare (Q2Qc 0) (ducetQ ex_sd) 20 st
  | Raise _ => None
  end.
Lemma Qc_of_nat_neg n : ~ (Qc_of_nat n < Q2Qc 0)%Qc.
Proof. intro X. unfold Qclt in X. rewrite this_nat in X. unfold Qlt in X. cbn in X. lia. Qed.
(** every hypothesis of [C67_round_trip] holds of the list a, d/D, b *)
Example C67_ex_round_trip : exists st, ex_convert ex_none false ex_values = Ok st /\
  asSimple Qccompare (Q2Qc 0) (ducetQ ex_sd) 20 st = Some (join [10%N] [lit "a/A"; lit "d/D"; lit "b/B"]).
Proof.
  destruct C62_ex_hyps as (ND & NE & AP & Hs & _ & _).
  pose proof (C67_round_trip Qc Qccompare Qclt (Q2Qc 0) (Q2Qc 1) bumpQ dropQ ex_space ex_low ex_upp (ducetQ ex_sd) false ex_none 20 ex_values) as T.
  destruct (listed ex_space ex_low ex_upp false ex_values) as [|[s lv] l] eqn:E; [discriminate (eq_trans (eq_sym E) eq_refl)|].
  assert (X : (s, lv) :: l = [(lit "a", 1); (lit "A", 3); (lit "d", 1); (lit "D", 3); (lit "b", 1); (lit "B", 3)]) by (rewrite <- E; vm_compute; reflexivity).
  injection X as -> -> ->.
  destruct (T (lit "a") 1 [(lit "A", 3); (lit "d", 1); (lit "D", 3); (lit "b", 1); (lit "B", 3)] [[Qc_of_nat 10]; [Qc_of_nat 32]; [Qc_of_nat 2]]) as (st & E1 & E2); auto.
  - apply Qc_lawful.
  - apply bump_up.
  - intros [|[|[|j]]] H; [| | |lia]; (split; [discriminate|]); cbn [nth last]; intro X; apply Qc_of_nat_neg in X; exact X.
  - cbn. lia.
  - vm_compute. exact I.
  - exists st. split; [exact E1|]. rewrite E2. vm_compute. reflexivity.
Qed.
Example C67_ex_clear : forall v, In v ex_values -> Forall (clear_group ex_space ex_low ex_upp) (groups ex_space ex_low ex_upp false v).
Proof.
  assert (P : forall c, ex_space c = false -> c <> 10%N -> c <> 32%N -> c <> 47%N -> plain_item ex_space [c] /\ ~ In 10%N [c]).
  { intros c Hc N1 N2 N3. unfold plain_item. repeat split; try discriminate; try (intros [X|[]]; congruence). intros x [<-|[]]. exact Hc. }
  intros v [<-|[<-|[<-|[]]]]; vm_compute groups; constructor; try constructor; try (left; cbn; lia);
    constructor; try constructor; try constructor; try apply P; try reflexivity; discriminate.
Qed.
(** a collation with three levels, a base of its own, and one element of no primary weight *)
Definition ex_elt (b : pystr) (lv : nat) : tel := TEl b lv 0%N [0] [] None None.
Definition ex_elts : list (pystr * tel) :=
  [(lit "b", ex_elt (lit "a") 1); (lit "c", ex_elt (lit "b") 2); (lit "C", ex_elt (lit "c") 3); (lit "x", ex_elt (lit "a") 2)].
Example C67_ex_complete : NoDup (map fst ex_elts) /\ (forall k e, In (k, e) ex_elts -> simple_text k /\ simple_text (t_base e)) /\
  bases_end ex_elts 5 /\
  as_simple ex_elts (fun k => streq k (lit "x")) 5 ex_elts = Some (join [10%N] [lit "b c/C"; lit "a"; lit " x"]).
Proof.
  split; [repeat constructor; cbn; intuition discriminate|]. split; [|split; [|vm_compute; reflexivity]].
  - intros k e H. cbn in H. unfold simple_text. repeat destruct H as [H|H]; try contradiction; injection H as <- <-; cbn; intuition discriminate.
  - exists (fun x => if streq x (lit "b") then 1 else if streq x (lit "c") then 2 else if streq x (lit "C") then 3 else if streq x (lit "x") then 1 else 0).
    split.
    + intros k e H. apply (dget_In _ streq_spec) in H. cbn in H. repeat destruct H as [H|H]; try contradiction; injection H as <- <-; vm_compute; lia.
    + intro x. repeat match goal with |- context [if ?b then _ else _] => destruct b end; lia.
Qed.

(** ** What one might expect and is not so *)
(** a list whose first line is a single item is not given back: the start is in the tree only after the
    element that follows it *)
Theorem C67_first_line_refuted :
  ~ forall values st, (forall v, In v values -> groups ex_space ex_low ex_upp true v = [[v]]) ->
      ex_convert ex_none true values = Ok st ->
      asSimple Qccompare (Q2Qc 0) (ducetQ ex_sd) 20 st = Some (join [10%N] values).
Proof.
  intro H. specialize (H [lit "1"; lit "2"]). destruct (ex_convert ex_none true [lit "1"; lit "2"]) as [st|] eqn:E; [|vm_compute in E; discriminate].
  specialize (H st). assert (A : asSimple Qccompare (Q2Qc 0) (ducetQ ex_sd) 20 st = Some (join [10%N] [lit "2"; lit "1"])).
  { vm_compute in E. injection E as <-. vm_compute. reflexivity. }
  rewrite A in H. assert (B : Some (join [10%N] [lit "2"; lit "1"]) = Some (join [10%N] [lit "1"; lit "2"])).
  { apply H; [|reflexivity]. intros v [<-|[<-|[]]]; vm_compute; reflexivity. }
  vm_compute in B. discriminate.
Qed.
(** it need not end: no number of steps is enough when two elements are each other's base *)
Theorem C67_circle_refuted : exists elts, NoDup (map fst elts) /\ forall np fuel, as_simple elts np fuel elts = None.
Proof.
  exists [(lit "a", ex_elt (lit "b") 3); (lit "b", ex_elt (lit "a") 3)]. split; [repeat constructor; cbn; intuition discriminate|].
  intros np fuel. unfold as_simple. cbn [plant_all]. unfold plant. cbn [t_level ex_elt t_base].
  assert (U : forall n, up3 [(lit "a", ex_elt (lit "b") 3); (lit "b", ex_elt (lit "a") 3)] n (lit "a") = None /\
                        up3 [(lit "a", ex_elt (lit "b") 3); (lit "b", ex_elt (lit "a") 3)] n (lit "b") = None).
  { induction n as [|n [IHa IHb]]; [now split|]. split; [exact IHb|exact IHa]. }
  unfold getparents. destruct (U fuel) as [_ ->]. reflexivity.
Qed.
(** an element with the same weights as its base is not in the list *)
Theorem C67_same_refuted : ~ forall elts np fuel out, bases_end elts fuel -> (forall k e, In (k, e) elts -> simple_text k /\ simple_text (t_base e)) ->
  as_simple elts np fuel elts = Some out -> forall k e, In (k, e) elts -> In k (items_of out).
Proof.
  intro H. specialize (H [(lit "b", ex_elt (lit "a") 4)] (fun _ => false) 2 (lit "a")).
  assert (X : In (lit "b") (items_of (lit "a"))).
  { apply (H) with (e := ex_elt (lit "a") 4).
    - exists (fun x => if streq x (lit "b") then 1 else 0). split.
      + intros k e D. apply (dget_In _ streq_spec) in D as [D|[]]. injection D as <- <-. vm_compute. lia.
      + intro x. destruct (streq x (lit "b")); lia.
    - intros k e [D|[]]. injection D as <- <-. unfold simple_text. cbn. intuition discriminate.
    - reflexivity.
    - now left. }
  vm_compute in X. destruct X as [X|[]]. discriminate.
Qed.
(** neither an expansion nor a place before the base shows: two different collations give one list *)
Theorem C67_lost_refuted : ~ forall (k b : pystr) (before before' : N) (exp exp' : pystr), before <> before' \/ exp <> exp' ->
  as_simple [(k, TEl b 1 before [0] exp None None)] (fun _ => false) 3 [(k, TEl b 1 before [0] exp None None)] <>
  as_simple [(k, TEl b 1 before' [0] exp' None None)] (fun _ => false) 3 [(k, TEl b 1 before' [0] exp' None None)].
Proof. intro H. apply (H (lit "b") (lit "a") 0%N 1%N [] (lit "c")); [left; discriminate|reflexivity]. Qed.
(** an element of no primary weight that has case forms is written twice: on the line of the marks, and again
    on the line it was taken from *)
Theorem C67_once_refuted : ~ forall elts np fuel out, bases_end elts fuel -> NoDup (map fst elts) -> as_simple elts np fuel elts = Some out -> NoDup (items_of out).
Proof.
  intro H. specialize (H [(lit "x", ex_elt (lit "a") 2); (lit "X", ex_elt (lit "x") 3)] (fun k => streq k (lit "x")) 4
    (join [10%N] [lit " x"; lit "a x/X"])).
  assert (X : NoDup (items_of (join [10%N] [lit " x"; lit "a x/X"]))).
  { apply H.
    - exists (fun x => if streq x (lit "x") then 1 else if streq x (lit "X") then 2 else 0). split.
      + intros k e D. apply (dget_In _ streq_spec) in D. cbn in D. destruct D as [D|[D|[]]]; injection D as <- <-; vm_compute; lia.
      + intro x. destruct (streq x (lit "x")); [lia|]. destruct (streq x (lit "X")); lia.
    - repeat constructor; cbn; intuition discriminate.
    - vm_compute. reflexivity. }
  vm_compute in X. inversion X as [|? ? _ X1]. inversion X1 as [|? ? N _]. apply N. cbn. auto.
Qed.
