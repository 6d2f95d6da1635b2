(** C62: what the lines of a list of items say; lists of any kind; concrete cases. *)
From Coq Require Import QArith Qcanon Sorting.Sorted.
From Verif Require Import Py PyFacts M_UnicodeSets P_UnicodeSets M_Collation P_Collation P_Collation2 T_Collation
  M_Tailor P_Tailor T_Tailor M_TailorQ T_Tailor3 T_Tailor4 P_AsICU M_Simple P_Simple P_Simple2 T_Simple.
Open Scope nat_scope.

(** * How a line is read *)
Definition plain_item (ws : N -> bool) (x : pystr) : Prop :=
  x <> [] /\ ~ In 32%N x /\ ~ In 47%N x /\ forall c, In c x -> ws c = false.
(** a line of groups: spaces between the groups, slashes in them *)
Definition written (gs : list (list pystr)) : pystr := join [32%N] (map (join [47%N]) gs).

Lemma plain_strip ws x : plain_item ws x -> strip ws x = x.
Proof.
  intros (N & _ & _ & H). apply strip_id. destruct x as [|c x]; [congruence|]. split.
  - exists c, x. split; [reflexivity|]. apply H. now left.
  - destruct (@exists_last _ (c :: x) ltac:(discriminate)) as (p & y & E). exists y, p. rewrite E. split; [reflexivity|].
    apply H. rewrite E. apply in_or_app. right. now left.
Qed.
Lemma join_no (c s : N) g : c <> s -> Forall (fun x : pystr => ~ In c x) g -> ~ In c (join [s] g).
Proof.
  intros N. induction g as [|x [|y g] IH]; intros F.
  - intros [].
  - inversion F; subst. cbn. assumption.
  - inversion F as [|? ? F1 F2]; subst. change (join [s] (x :: y :: g)) with (x ++ [s] ++ join [s] (y :: g)).
    rewrite !in_app_iff. intros [X|[[X|[]]|X]]; [contradiction|congruence|now apply (IH F2)].
Qed.

(** A line that is not just two forms of the same word is read group by group. *)
Theorem C62_reads :
  forall ws lower upper strict gs,
    gs <> [] -> (forall g, In g gs -> g <> [] /\ Forall (plain_item ws) g) ->
    (strict = true \/ length gs <> 2 \/ lower (join [47%N] (hd [] gs)) <> lower (join [47%N] (nth 1 gs []))) ->
    map (slash_items ws lower upper strict) (space_items lower strict (written gs)) =
    map (fun g => slash_items ws lower upper strict (join [47%N] g)) gs.
Proof.
  intros ws lower upper strict gs N H C.
  assert (SP : split_on 32%N (written gs) = map (join [47%N]) gs).
  { apply split_join; [now destruct gs|]. apply Forall_forall. intros x Hx. apply in_map_iff in Hx as (g & <- & Hg).
    apply join_no; [discriminate|]. eapply Forall_impl; [|apply (proj2 (H g Hg))]. intros y Hy. apply Hy. }
  unfold space_items. rewrite SP. rewrite <- (map_map (join [47%N]) (slash_items ws lower upper strict)). f_equal.
  destruct gs as [|a [|b [|c gs]]]; try reflexivity. cbn [map].
  destruct strict; [reflexivity|]. cbn [negb andb]. destruct C as [C|[C|C]]; [discriminate|cbn in C; congruence|].
  cbn [hd nth] in C. destruct (streq_spec (lower (join [47%N] a)) (lower (join [47%N] b))); [contradiction|reflexivity].
Qed.

(** the forms of a word: the first letters in capitals, the others small *)
Theorem C62_case_forms :
  forall lower upper s,
    NoDup (cased_forms lower upper s) /\ StronglySorted (fun a b => strleb b a = true) (cased_forms lower upper s) /\
    forall y, In y (cased_forms lower upper s) <->
      exists p q, s = p ++ q /\ y = upper p ++ lower q.
Proof.
  intros lower upper s. unfold cased_forms. split; [|split].
  - eapply Permutation_NoDup; [apply isort_perm|]. apply NoDup_nodup.
  - apply isort_sorted; unfold str_geb.
    + intros x y. destruct (strleb_total y x); auto.
    + intros x y z A B. eapply strleb_trans; eassumption.
  - intros y. rewrite in_isort. unfold set_of. rewrite nodup_In, in_map_iff. split.
    + intros (i & <- & _). exists (firstn i s), (skipn i s). split; [symmetry; apply firstn_skipn|reflexivity].
    + intros (p & q & -> & ->). exists (length p). split.
      * now rewrite firstn_app, skipn_app, Nat.sub_diag, firstn_all, skipn_all, app_nil_r.
      * apply in_seq. rewrite app_length. lia.
Qed.

(** What a group gives: a letter on its own is followed by its other case, a longer word on its own by all its forms; other
    groups are taken as they are, but if not strict a small word followed by other forms of it is replaced by all forms. *)
Theorem C62_group :
  forall ws lower upper strict g x r, g = x :: r -> Forall (plain_item ws) g ->
  let items := slash_items ws lower upper strict (join [47%N] g) in
  (r = [] -> length x = 1 -> upper x = lower x -> items = [x]) /\
  (r = [] -> length x = 1 -> upper x <> lower x -> x = lower x -> items = [x; upper x]) /\
  (r = [] -> length x = 1 -> upper x <> lower x -> x <> lower x -> items = [x; lower x]) /\
  (r = [] -> 1 < length x -> items = cased_forms lower upper x) /\
  (r <> [] -> strict = true -> items = g) /\
  (r <> [] -> length x = 1 -> items = g) /\
  (r <> [] -> lower x <> x -> items = g) /\
  (r <> [] -> (exists y, In y r /\ lower y <> lower x) -> items = g) /\
  (r <> [] -> strict = false -> 1 < length x -> lower x = x -> upper x <> lower x -> (forall y, In y r -> lower y = lower x) ->
     items = cased_forms lower upper x).
Proof.
  intros ws lower upper strict g x r -> F items.
  assert (SP : map (strip ws) (split_on 47%N (join [47%N] (x :: r))) = x :: r).
  { rewrite split_join; [|discriminate|].
    - clear items. induction F as [|y m Hy _ IH]; [reflexivity|]. cbn [map]. rewrite (plain_strip ws y Hy), IH. reflexivity.
    - eapply Forall_impl; [|exact F]. intros y Hy. apply Hy. }
  assert (EI : items = let l1 := if ((negb strict && negb (streq (upper x) (lower x)) &&
                   (streq (lower x) x && Nat.ltb 1 (length x) && forallb (fun c => streq (lower c) (lower x)) r))
                  || (Nat.ltb 1 (length x) && Nat.eqb (length (x :: r)) 1))%bool
              then cased_forms lower upper x else x :: r in
    if (Nat.eqb (length l1) 1 && Nat.eqb (length x) 1 && negb (streq (upper x) (lower x)))%bool
    then l1 ++ [if streq x (lower x) then upper x else lower x] else l1).
  { unfold items, slash_items. rewrite SP. reflexivity. }
  clearbody items. subst items. cbv zeta.
  assert (ALL : forallb (fun c => streq (lower c) (lower x)) r = true <-> forall y, In y r -> lower y = lower x).
  { rewrite forallb_forall. split; intros H y Hy; specialize (H y Hy); destruct (streq_spec (lower y) (lower x)); auto; discriminate. }
  assert (TAKE : r <> [] -> (negb strict && negb (streq (upper x) (lower x)) &&
                   (streq (lower x) x && Nat.ltb 1 (length x) && forallb (fun c => streq (lower c) (lower x)) r))%bool = false ->
     (if Nat.eqb (length (if ((negb strict && negb (streq (upper x) (lower x)) &&
                   (streq (lower x) x && Nat.ltb 1 (length x) && forallb (fun c => streq (lower c) (lower x)) r))
                  || (Nat.ltb 1 (length x) && Nat.eqb (length (x :: r)) 1))%bool
              then cased_forms lower upper x else x :: r)) 1 && Nat.eqb (length x) 1 && negb (streq (upper x) (lower x))
     then (if ((negb strict && negb (streq (upper x) (lower x)) &&
                   (streq (lower x) x && Nat.ltb 1 (length x) && forallb (fun c => streq (lower c) (lower x)) r))
                  || (Nat.ltb 1 (length x) && Nat.eqb (length (x :: r)) 1))%bool
              then cased_forms lower upper x else x :: r) ++ [if streq x (lower x) then upper x else lower x]
     else (if ((negb strict && negb (streq (upper x) (lower x)) &&
                   (streq (lower x) x && Nat.ltb 1 (length x) && forallb (fun c => streq (lower c) (lower x)) r))
                  || (Nat.ltb 1 (length x) && Nat.eqb (length (x :: r)) 1))%bool
              then cased_forms lower upper x else x :: r))%bool = x :: r).
  { intros N E. rewrite E. destruct r as [|y r]; [congruence|]. cbn [length Nat.eqb]. rewrite andb_false_r. reflexivity. }
  assert (ONE : forall b, length x = 1 -> (b && Nat.ltb 1 (length x))%bool = false) by (intros b ->; apply andb_false_r).
  repeat split; intros.
  - subst r. rewrite H0. cbn [Nat.ltb Nat.leb andb]. rewrite !andb_false_r. cbn [orb length Nat.eqb andb].
    destruct (streq_spec (upper x) (lower x)); [reflexivity|contradiction].
  - subst r. rewrite H0. cbn [Nat.ltb Nat.leb andb]. rewrite !andb_false_r. cbn [orb length Nat.eqb andb].
    destruct (streq_spec (upper x) (lower x)); [contradiction|]. destruct (streq_spec x (lower x)); [reflexivity|contradiction].
  - subst r. rewrite H0. cbn [Nat.ltb Nat.leb andb]. rewrite !andb_false_r. cbn [orb length Nat.eqb andb].
    destruct (streq_spec (upper x) (lower x)); [contradiction|]. destruct (streq_spec x (lower x)); [contradiction|reflexivity].
  - subst r. replace (Nat.ltb 1 (length x)) with true by (symmetry; now apply Nat.ltb_lt). cbn [length Nat.eqb andb]. rewrite orb_true_r.
    replace (Nat.eqb (length x) 1) with false by (symmetry; apply Nat.eqb_neq; lia). now rewrite andb_false_r.
  - apply TAKE; [assumption|]. subst strict. reflexivity.
  - apply TAKE; [assumption|]. rewrite H0. cbn [Nat.ltb Nat.leb]. now rewrite !andb_false_r.
  - apply TAKE; [assumption|]. destruct (streq_spec (lower x) x); [contradiction|]. now rewrite !andb_false_r.
  - apply TAKE; [assumption|]. destruct H0 as (y & Hy & Ny).
    destruct (forallb _ r) eqn:E; [|now rewrite !andb_false_r]. exfalso. apply Ny. now apply (proj1 ALL eq_refl).
  - rewrite (proj2 ALL) by assumption. subst strict. destruct (streq_spec (upper x) (lower x)); [contradiction|].
    destruct (streq_spec (lower x) x); [|contradiction]. replace (Nat.ltb 1 (length x)) with true by (symmetry; now apply Nat.ltb_lt).
    cbn [negb andb orb]. replace (Nat.eqb (length x) 1) with false by (symmetry; apply Nat.eqb_neq; lia). now rewrite andb_false_r.
Qed.

(** * Lists of any kind *)
Section Any.
  Context {W : Type} (wcmp : W -> W -> comparison) (zero : W) (ws : N -> bool) (lower upper : pystr -> pystr).
  Variable d : list (pystr * list (W * W * W)).
  Variable strict : bool.
  Variable elts : list (pystr * tel).
  Variable P : pystr -> Prop.  (* the items *)
  Definition entry_ok (p : pystr * tel) : Prop :=
    P (fst p) /\ exists b lv, snd p = TEl b lv 0%N [0] [] None None /\ P b /\ 1 <= lv <= 3.
  (** [starts]: the items that became a start *)
  Definition okst (seen starts : list pystr) (e : list (pystr * tel)) (base : option pystr) : Prop :=
    (exists new, e = elts ++ new /\ Forall entry_ok new) /\ NoDup (map fst e) /\
    (forall b, base = Some b -> P b) /\
    forall x, In x seen -> x <> [] -> In x (map fst e) \/ In x starts.
  Notation ofN b := (match b with None => 1 | Some _ => 0 end).

  Lemma any_item seen starts e base lv s : okst seen starts e base -> 1 <= lv <= 3 -> (s <> [] -> P s) ->
    exists starts' e' base' lv', add_item (e, base, lv) s = (e', base', lv') /\ 1 <= lv' <= 3 /\
      okst (seen ++ [s]) starts' e' base' /\ length starts' + ofN base' <= length starts + ofN base.
  Proof.
    intros (EN & ND & HB & HS) LV HP. unfold add_item. destruct s as [|c s].
    - exists starts, e, base, lv. split; [reflexivity|]. split; [exact LV|]. split; [|lia].
      split; [exact EN|]. split; [exact ND|]. split; [exact HB|].
      intros x Hx Nx. apply in_app_or in Hx as [Hx|[Hx|[]]]; [now apply HS|congruence].
    - specialize (HP ltac:(discriminate)). destruct base as [b|].
      + destruct (dmem streq e (c :: s)) eqn:D.
        * exists starts, e, (Some b), lv. split; [reflexivity|]. split; [exact LV|]. split; [|lia].
          split; [exact EN|]. split; [exact ND|]. split; [exact HB|].
          intros x Hx Nx. apply in_app_or in Hx as [Hx|[<-|[]]]; [now apply HS|]. left. now apply (dmem_spec _ streq_spec).
        * assert (NI : ~ In (c :: s) (map fst e)).
          { intros X. apply (dmem_spec _ streq_spec) in X. congruence. }
          exists starts, (dset streq e (c :: s) (TEl b lv 0%N [0] [] None None)), (Some (c :: s)), 3.
          split; [reflexivity|]. split; [lia|]. split; [|lia]. rewrite dset_fresh by exact NI.
          destruct EN as (new & -> & FN). split; [|split; [|split]].
          -- exists (new ++ [(c :: s, TEl b lv 0%N [0] [] None None)]). split; [now rewrite app_assoc|].
             apply Forall_app. split; [exact FN|]. constructor; [|constructor]. split; [exact HP|]. exists b, lv. auto.
          -- rewrite map_app. cbn [map fst]. apply (Permutation_NoDup (l := (c :: s) :: map fst (elts ++ new))); [apply Permutation_cons_append|].
             now constructor.
          -- intros b' E. injection E as <-. exact HP.
          -- intros x Hx Nx. rewrite map_app, in_app_iff. apply in_app_or in Hx as [Hx|[<-|[]]]; [|cbn; auto].
             destruct (HS x Hx Nx); auto.
      + exists (starts ++ [c :: s]), e, (Some (c :: s)), 3. split; [reflexivity|]. split; [lia|]. split; [|rewrite app_length; cbn; lia].
        split; [exact EN|]. split; [exact ND|]. split; [intros b E; injection E as <-; exact HP|].
        intros x Hx Nx. rewrite in_app_iff. apply in_app_or in Hx as [Hx|[<-|[]]]; [|cbn; auto]. destruct (HS x Hx Nx); auto.
  Qed.
  Lemma any_group : forall g seen starts e base lv, okst seen starts e base -> 1 <= lv <= 3 -> (forall s, In s g -> s <> [] -> P s) ->
    exists starts' e' base' lv', fold_left add_item g (e, base, lv) = (e', base', lv') /\ 1 <= lv' <= 3 /\
      okst (seen ++ g) starts' e' base' /\ length starts' + ofN base' <= length starts + ofN base.
  Proof.
    induction g as [|s g IH]; intros seen starts e base lv O LV HP; cbn [fold_left].
    - exists starts, e, base, lv. rewrite app_nil_r. split; [reflexivity|]. split; [exact LV|]. split; [exact O|lia].
    - destruct (any_item seen starts e base lv s O LV (HP s (or_introl eq_refl))) as (st1 & e1 & b1 & lv1 & -> & L1 & O1 & N1).
      destruct (IH (seen ++ [s]) st1 e1 b1 lv1 O1 L1 (fun x Hx => HP x (or_intror Hx))) as (st2 & e2 & b2 & lv2 & -> & L2 & O2 & N2).
      exists st2, e2, b2, lv2. rewrite <- app_assoc in O2. split; [reflexivity|]. split; [exact L2|]. split; [exact O2|lia].
  Qed.
  Lemma any_groups : forall its seen starts e base lv, okst seen starts e base -> 1 <= lv <= 3 ->
    (forall it s, In it its -> In s (slash_items ws lower upper strict it) -> s <> [] -> P s) ->
    exists starts' e' base' lv', fold_left (add_space_item ws lower upper strict) its (e, base, lv) = (e', base', lv') /\ 1 <= lv' <= 3 /\
      okst (seen ++ flat_map (slash_items ws lower upper strict) its) starts' e' base' /\ length starts' + ofN base' <= length starts + ofN base.
  Proof.
    induction its as [|it its IH]; intros seen starts e base lv O LV HP; cbn [fold_left flat_map].
    - exists starts, e, base, lv. rewrite app_nil_r. split; [reflexivity|]. split; [exact LV|]. split; [exact O|lia].
    - unfold add_space_item at 2.
      destruct (any_group _ seen starts e base lv O LV (fun s Hs => HP it s (or_introl eq_refl) Hs)) as (st1 & e1 & b1 & lv1 & -> & L1 & O1 & N1).
      destruct (IH _ st1 e1 b1 2 O1 ltac:(lia) (fun i s Hi => HP i s (or_intror Hi))) as (st2 & e2 & b2 & lv2 & -> & L2 & O2 & N2).
      exists st2, e2, b2, lv2. rewrite <- app_assoc in O2. split; [reflexivity|]. split; [exact L2|]. split; [exact O2|lia].
  Qed.
  Lemma no_primary_ok s : exists b, no_primary wcmp zero d s = Ok b.
  Proof.
    unfold no_primary. destruct (C09 wcmp zero d s) as (v & E). rewrite E. cbn [bind].
    pose proof (dkey_len wcmp zero d s v E) as L. destruct v as [|l v]; [discriminate|]. cbn. eauto.
  Qed.
  Lemma any_lines : forall values seen starts e base, okst seen starts e base ->
    (forall v it s, In v values -> In it (space_items lower strict v) -> In s (slash_items ws lower upper strict it) -> s <> [] -> P s) ->
    exists starts' e' base', add_lines wcmp zero ws lower upper d strict (e, base) values = Ok (e', base') /\
      okst (seen ++ flat_map (fun v => flat_map (slash_items ws lower upper strict) (space_items lower strict v)) values) starts' e' base' /\
      length starts' <= length starts + length values.
  Proof.
    induction values as [|v values IH]; intros seen starts e base O HP; cbn [add_lines flat_map].
    - exists starts, e, base. rewrite app_nil_r. split; [reflexivity|]. split; [exact O|]. cbn [length]. lia.
    - unfold add_line. destruct (no_primary_ok (hd [] (space_items lower strict v))) as (np & ->). cbn [bind].
      assert (ST : exists base1 lv1, (if np then Ok (e, base, 2)
               else match base with
                    | None => Ok (e, None, 1)
                    | Some b => do nb <- no_primary wcmp zero d b; Ok (e, if nb then None else Some b, 1)
                    end) = Ok (e, base1, lv1) /\ 1 <= lv1 <= 3 /\ okst seen starts e base1).
      { destruct np; [exists base, 2; repeat split; auto; apply O|]. destruct base as [b|]; [|exists None, 1; repeat split; auto; apply O].
        destruct (no_primary_ok b) as (nb & ->). cbn [bind]. eexists. exists 1. split; [reflexivity|]. split; [lia|].
        destruct O as (O1 & O2 & O3 & O4). split; [exact O1|]. split; [exact O2|]. split; [|exact O4].
        destruct nb; [discriminate|exact O3]. }
      destruct ST as (base1 & lv1 & -> & L1 & O1). cbn [bind].
      destruct (any_groups (space_items lower strict v) seen starts e base1 lv1 O1 L1 (fun it s Hi => HP v it s (or_introl eq_refl) Hi))
        as (st2 & e2 & b2 & lv2 & -> & _ & O2 & N2).
      destruct (IH _ st2 e2 b2 O2 (fun v' it s Hv => HP v' it s (or_intror Hv))) as (st3 & e3 & b3 & E & O3 & N3).
      exists st3, e3, b3. split; [exact E|]. rewrite <- app_assoc in O3. split; [exact O3|]. cbn [length].
      destruct base1, b2; cbn in *; lia.
  Qed.
End Any.

Lemma in_levels x lv gs : In x (map fst (line_levels lv gs)) <-> exists g, In g gs /\ In x g.
Proof.
  assert (G : forall lv g, map fst (group_levels lv g) = g).
  { intros l [|y r]; [reflexivity|]. cbn. rewrite map_map. cbn. now rewrite map_id. }
  destruct gs as [|g gs]; cbn [line_levels].
  - split; [intros []|intros (g & [] & _)].
  - rewrite map_app, in_app_iff, G.
    assert (X : In x (map fst (flat_map (group_levels 2) gs)) <-> exists g, In g gs /\ In x g).
    { rewrite flat_map_concat_map, concat_map, map_map, in_concat. split.
      - intros (m & Hm & Hx). apply in_map_iff in Hm as (g' & <- & Hg). rewrite G in Hx. eauto.
      - intros (g' & Hg & Hx). exists g'. split; [|exact Hx]. apply in_map_iff. exists g'. split; [apply G|exact Hg]. }
    rewrite X. split.
    + intros [H|(g' & H1 & H2)]; [exists g|exists g']; cbn; auto.
    + intros (g' & [->|H1] & H2); eauto.
Qed.

(** Whatever the lines are, they are read without failing: what was there stays, each new entry files an item under an
    item at one of the first three levels, and at most one item a line (a start) gets no entry. *)
Theorem C62_any :
  forall W (wcmp : W -> W -> comparison) zero ws lower upper (d : list (pystr * list (W * W * W))) strict elts values,
    NoDup (map fst elts) ->
    let items := map fst (listed ws lower upper strict values) in
    exists new b starts, add_lines wcmp zero ws lower upper d strict (elts, None) values = Ok (elts ++ new, b) /\
      NoDup (map fst (elts ++ new)) /\
      (forall k e, In (k, e) new -> In k items /\ k <> [] /\ In (t_base e) items /\ t_base e <> [] /\ 1 <= t_level e <= 3 /\
         t_before e = 0%N /\ t_exp e = [] /\ t_order e = [0] /\ t_short e = None /\ t_key e = None) /\
      (forall x, In x items -> x <> [] -> In x (map fst (elts ++ new)) \/ In x starts) /\ length starts <= length values.
Proof.
  intros W wcmp zero ws lower upper d strict elts values ND items.
  assert (IN : forall x, In x items <-> exists v it, In v values /\ In it (space_items lower strict v) /\ In x (slash_items ws lower upper strict it)).
  { intros x. unfold items, listed. rewrite flat_map_concat_map, concat_map, map_map, in_concat. split.
    - intros (m & Hm & Hx). apply in_map_iff in Hm as (v & <- & Hv). apply in_levels in Hx as (g & Hg & Hx).
      apply in_map_iff in Hg as (it & <- & Hi). eauto 6.
    - intros (v & it & Hv & Hi & Hx). eexists. split; [apply in_map_iff; exists v; split; [reflexivity|exact Hv]|].
      apply in_levels. exists (slash_items ws lower upper strict it). split; [now apply in_map|exact Hx]. }
  destruct (any_lines wcmp zero ws lower upper d strict elts (fun x => In x items /\ x <> []) values [] [] elts None)
    as (starts & e' & b & E & ((new & -> & FN) & ND' & _ & HS) & LS).
  - split; [exists []; split; [now rewrite app_nil_r|constructor]|]. split; [exact ND|]. split; [discriminate|intros x []].
  - intros v it s H1 H2 H3 H4. split; [|exact H4]. apply IN. eauto.
  - exists new, b, starts. split; [exact E|]. split; [exact ND'|]. split; [|split; [|exact LS]].
    + intros k e Hin. rewrite Forall_forall in FN. destruct (FN _ Hin) as ([A1 A2] & b0 & lv & Ee & [B1 B2] & LV). cbn [fst snd] in *. subst e.
      cbn. auto 12.
    + intros x Hx Nx. apply HS; [|exact Nx]. apply IN in Hx as (v & it & H1 & H2 & H3). cbn [app].
      apply in_flat_map. exists v. split; [exact H1|]. apply in_flat_map. eauto.
Qed.

(** What [_insertBefore] changes: nothing, or the entry of one start, which is now put before another element, and that
    element, which is no longer tailored. *)
Theorem C62_insert :
  forall W (wcmp : W -> W -> comparison) zero first_op (st st' : tstate (W := W)),
    NoDup (map fst (ts_elts st)) -> insert_before wcmp zero first_op st = Ok st' ->
    st' = st \/
    exists start newbase, ts_cells st' = ts_cells st /\
      (exists k e, In (k, e) (ts_elts st) /\ t_base e = start) /\ In newbase (map fst (ts_elts st)) /\
      dget streq (ts_elts st') newbase = None /\
      (forall k, k <> start -> k <> newbase -> dget streq (ts_elts st') k = dget streq (ts_elts st) k) /\
      (start <> newbase -> exists e, dget streq (ts_elts st') start = Some e /\ t_base e = newbase /\ t_before e = 1%N).
Proof.
  intros W wcmp zero first_op st st' ND H. unfold insert_before in H.
  destruct (first_op (by_key wcmp zero st)) as [[j1 j2]|]; [|left; congruence].
  destruct (nth_error (by_key wcmp zero st) j2) as [newbase|] eqn:EN; [|left; congruence].
  destruct (nth_error (by_key wcmp zero st) j1) as [k|]; [|discriminate].
  destruct (dget streq (ts_elts st) k) as [b|] eqn:Ek; [|discriminate]. injection H as <-. right.
  set (e := match dget streq (ts_elts st) (t_base b) with
            | Some o => TEl newbase (t_level o) 1 (t_order o) (t_exp o) (t_short o) (t_key o)
            | None => TEl newbase 1 1 [0] [] None None end).
  assert (NDs : NoDup (dkeys (dset streq (ts_elts st) (t_base b) e))) by (apply (dset_NoDup _ streq_spec); exact ND).
  exists (t_base b), newbase. cbn [with_elts ts_elts ts_cells]. split; [reflexivity|]. split; [|split; [|split; [|split]]].
  - exists k, b. split; [now apply (dget_In _ streq_spec)|reflexivity].
  - apply nth_error_In in EN. unfold by_key in EN. now apply in_isort in EN.
  - rewrite (dget_ddel _ streq_spec) by exact NDs. destruct (streq_spec newbase newbase); [reflexivity|congruence].
  - intros x N1 N2. rewrite (dget_ddel _ streq_spec) by exact NDs. destruct (streq_spec x newbase); [contradiction|].
    apply (dget_dset_other _ streq_spec). congruence.
  - intros N. exists e. rewrite (dget_ddel _ streq_spec) by exact NDs. destruct (streq_spec (t_base b) newbase); [contradiction|].
    rewrite (dget_dset_same _ streq_spec). split; [reflexivity|]. unfold e. destruct (dget streq (ts_elts st) (t_base b)); auto.
Qed.

(** * Concrete cases *)
Definition ex_low (s : pystr) : pystr := map (fun c => if (N.leb 65 c && N.leb c 90)%bool then N.add c 32 else c) s.
Definition ex_upp (s : pystr) : pystr := map (fun c => if (N.leb 97 c && N.leb c 122)%bool then N.sub c 32 else c) s.
Definition ex_sd : list (pystr * list (N * N * N)) :=
  [(lit "a", [(10, 32, 2)]); (lit "A", [(10, 32, 8)]); (lit "b", [(20, 32, 2)]); (lit "B", [(20, 32, 8)]);
   (lit "d", [(40, 32, 2)]); (lit "D", [(40, 32, 8)]); (lit "1", [(5, 32, 2)]); (lit "2", [(6, 32, 2)])]%N.
Definition ex_convert first_op strict values :=
  convertSimple Qccompare (Q2Qc 0) (Q2Qc 1) bumpQ dropQ ex_space ex_low ex_upp (ducetQ ex_sd) first_op 20 strict [] values.
(** difflib compares the elements A, d, D, b, B with A, b, B, d, D; here an operation that puts A and d first *)
Definition ex_first (out : list pystr) : option (nat * nat) :=
  match out with [_; _; x; _; _] => if streq x (lit "D") then Some (0, 2) else None | _ => None end.
Definition ex_values : list pystr := [lit "a"; lit "d/D"; lit "b"].

Example C62_ex_items : map fst (listed ex_space ex_low ex_upp false ex_values) =
  [lit "a"; lit "A"; lit "d"; lit "D"; lit "b"; lit "B"].
Proof. vm_compute. reflexivity. Qed.
Example C62_ex_hyps :
  let items := map fst (listed ex_space ex_low ex_upp false ex_values) in
  NoDup items /\ ~ In [] items /\ all_primary Qccompare (Q2Qc 0) (ducetQ ex_sd) ex_low false ex_values items /\
  In (hd [] items) (map fst ex_sd) /\
  (forall x, In x items -> In x (map fst ex_sd) -> exists v, dkey Qccompare (Q2Qc 0) (ducetQ ex_sd) x = Ok v /\
       (forall j, j < 3 -> nth j v [] <> []) /\ last (nth 0 v []) (Q2Qc 0) <> Q2Qc 0) /\
  difflib_ok (ducetQ ex_sd) ex_first.
Proof.
  cbv zeta. rewrite C62_ex_items.
  assert (K : forall x a b c, dkey Qccompare (Q2Qc 0) (ducetQ ex_sd) x = Ok [[Qc_of_nat a]; [Qc_of_nat b]; [Qc_of_nat c]] -> a <> 0 ->
     has_primary Qccompare (Q2Qc 0) (ducetQ ex_sd) x /\
     exists v, dkey Qccompare (Q2Qc 0) (ducetQ ex_sd) x = Ok v /\ (forall j, j < 3 -> nth j v [] <> []) /\ last (nth 0 v []) (Q2Qc 0) <> Q2Qc 0).
  { intros x a b c E N.
    assert (NZ : Qc_of_nat a <> Q2Qc 0).
    { intros X. apply (f_equal this) in X. pose proof (this_nat a) as Y. rewrite X in Y. unfold Qeq in Y. cbn in Y. lia. }
    split.
    - eexists. exists (Qc_of_nat a). split; [exact E|]. split; [now left|exact NZ].
    - eexists. split; [exact E|]. split; [|exact NZ]. intros [|[|[|j]]] H; cbn; try discriminate. lia. }
  assert (KX : forall x, In x [lit "a"; lit "A"; lit "d"; lit "D"; lit "b"; lit "B"; lit "d/D"] ->
     has_primary Qccompare (Q2Qc 0) (ducetQ ex_sd) x /\
     exists v, dkey Qccompare (Q2Qc 0) (ducetQ ex_sd) x = Ok v /\ (forall j, j < 3 -> nth j v [] <> []) /\ last (nth 0 v []) (Q2Qc 0) <> Q2Qc 0).
  { intros x [<-|[<-|[<-|[<-|[<-|[<-|[<-|[]]]]]]]].
    - apply (K _ 10 32 2); [vm_compute; reflexivity|discriminate].
    - apply (K _ 10 32 8); [vm_compute; reflexivity|discriminate].
    - apply (K _ 40 32 2); [vm_compute; reflexivity|discriminate].
    - apply (K _ 40 32 8); [vm_compute; reflexivity|discriminate].
    - apply (K _ 20 32 2); [vm_compute; reflexivity|discriminate].
    - apply (K _ 20 32 8); [vm_compute; reflexivity|discriminate].
    - apply (K _ 40 32 2); [vm_compute; reflexivity|discriminate]. }
  split; [|split; [|split; [|split; [|split]]]].
  - repeat constructor; cbn; intuition discriminate.
  - cbn. intuition discriminate.
  - split.
    + intros v [<-|[<-|[<-|[]]]]; apply KX; vm_compute; auto 10.
    + intros y Hy. apply KX. cbn in Hy |- *. intuition.
  - now left.
  - intros x Hx _. apply KX. cbn in Hx |- *. intuition.
  - intros out j1 j2 H. destruct out as [|o1 [|o2 [|o3 [|o4 [|o5 [|]]]]]]; try discriminate. cbn [ex_first] in H.
    destruct (streq_spec o3 (lit "D")) as [->|]; [|discriminate]. injection H as <- <-. split; [reflexivity|]. split; [lia|].
    intros x Hx. cbn in Hx. injection Hx as <-. cbn. auto 10.
Qed.
Example C62_ex_result : exists st, ex_convert ex_first false ex_values = Ok st /\
  map (fun p => (fst p, t_base (snd p), t_level (snd p), t_before (snd p))) (ts_elts st) =
  [(lit "A", lit "a", 3, 0%N); (lit "d", lit "A", 1, 0%N); (lit "b", lit "D", 1, 0%N); (lit "B", lit "b", 3, 0%N);
   (lit "a", lit "D", 1, 1%N)].
Proof.
  destruct (ex_convert ex_first false ex_values) as [st|] eqn:E; vm_compute in E; [|discriminate].
  exists st. split; [reflexivity|]. injection E as <-. vm_compute. reflexivity.
Qed.

(** ** What one might expect and is not so *)
(** a list in which the first item comes again cannot be converted: the item becomes its own base *)
Theorem C62_repeated_start_refuted :
  ~ forall values, exists st, ex_convert (fun _ => None) true values = Ok st.
Proof. intros H. destruct (H [lit "1"; lit "2"; lit "1"]) as (st & E). vm_compute in E. discriminate. Qed.
(** strict does not stop a word on its own from being given all its case forms *)
Theorem C62_strict_refuted :
  ~ forall g, g <> [] -> Forall (plain_item ex_space) g -> incl (slash_items ex_space ex_low ex_upp true (join [47%N] g)) g.
Proof.
  intros H. specialize (H [lit "ab"] ltac:(discriminate)).
  assert (X : In (lit "AB") [lit "ab"]).
  { apply H.
    - constructor; [|constructor]. split; [discriminate|]. split; [|split].
      + cbn. intuition discriminate. + cbn. intuition discriminate.
      + intros c [<-|[<-|[]]]; reflexivity.
    - vm_compute. auto. }
  destruct X as [X|[]]. discriminate.
Qed.
