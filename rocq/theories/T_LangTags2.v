(** C17, C48, C49: the registry of tags, the forms of a tag, and analyse
    (lib/sldr/langtags_full.py). *)
From Coq Require Import Relations.
From Verif Require Import Py PyFacts M_LangTags P_LangTags P_Collation P_Collation2 T_LangTags.
Local Open Scope nat_scope.

(** ** C17 *)
(** [order] lists a set in some order *)
Definition set_order (order : list pystr -> list pystr) : Prop :=
  forall l, Permutation l (order l).

Definition lookup (r : registry) (f : pystr) : option nat := dget streq (r_map r) f.

Lemma in_order order t f : set_order order ->
  In f (order (strdedup (allforms t))) <-> In f (allforms t).
Proof.
  intros HO. rewrite <- (in_strdedup (allforms t)). split; apply Permutation_in; [symmetry|]; apply HO.
Qed.

Lemma existsb_filter_in p l f : existsb (streq f) (filter p l) = true <-> In f l /\ p f = true.
Proof. rewrite existsb_streq. apply filter_In. Qed.

Lemma last_longest l k rest :
  rev (isort (fun a b : pystr => Nat.leb (length a) (length b)) l) = k :: rest ->
  In k l /\ forall a, In a l -> length a <= length k.
Proof.
  intros E.
  assert (El : isort (fun a b : pystr => Nat.leb (length a) (length b)) l = rev rest ++ [k]).
  { rewrite <- (rev_involutive (isort _ l)), E. reflexivity. }
  assert (HS : StronglySorted (fun a b : pystr => Nat.leb (length a) (length b) = true) (rev rest ++ [k])).
  { rewrite <- El. apply isort_sorted.
    - intros a b. rewrite !Nat.leb_le. lia.
    - intros a b c. rewrite !Nat.leb_le. lia. }
  split.
  - apply (in_isort (fun a b : pystr => Nat.leb (length a) (length b))). rewrite El.
    apply in_or_app. right. left. reflexivity.
  - intros a Ha. apply (in_isort (fun a b : pystr => Nat.leb (length a) (length b))) in Ha.
    rewrite El in Ha. apply in_app_or in Ha. destruct Ha as [Ha|[->|[]]]; [|lia].
    clear E El. induction (rev rest) as [|x m IH]; [destruct Ha|].
    inversion HS as [|? ? HS' HF]; subst. destruct Ha as [->|Ha]; [|now apply IH].
    rewrite Forall_forall in HF. apply Nat.leb_le, HF, in_or_app. right. left. reflexivity.
Qed.

(** What one [add] does to the mapping and to the objects. *)
Theorem C17_add_spec order r tg r' ret :
  set_order order -> add order r tg = (r', ret) ->
  let forms := allforms (r_obj r tg) in
  (* every form of the added tag is present and every other key keeps its object *)
  (forall f, In f forms -> lookup r' f <> None) /\
  (forall f, ~ In f forms -> lookup r' f = lookup r f) /\
  (* either no form was known, or the longest known form f0 decides *)
  ( ((forall f, In f forms -> lookup r f = None) /\ ret = tg /\ r_obj r' = r_obj r /\
     forall f, In f forms -> lookup r' f = Some tg)
    \/
    exists f0 v, In f0 forms /\ lookup r f0 = Some v /\
      (forall f, In f forms -> lookup r f <> None -> length f <= length f0) /\
      (forall o, o <> v -> r_obj r' o = r_obj r o) /\
      r_obj r' v = fst (merge_equivalent (r_obj r v) (r_obj r tg)) /\
      if snd (merge_equivalent (r_obj r v) (r_obj r tg))
      then ret = v /\ forall f, In f forms -> lookup r' f = match lookup r f with Some o => Some o | None => Some v end
      else ret = tg /\ forall f, In f forms -> lookup r' f = Some tg ).
Proof.
  intros HO H. cbv zeta. unfold add in H.
  set (forms := allforms (r_obj r tg)) in *.
  set (allf := order (strdedup forms)) in *.
  assert (HA : forall f, In f allf <-> In f forms) by (intros f; apply in_order, HO).
  destruct (rev (isort (fun a b : pystr => Nat.leb (length a) (length b))
             (filter (fun a => dmem streq (r_map r) a) allf))) as [|k rest] eqn:E.
  - injection H as <- <-.
    assert (EN : filter (fun a => dmem streq (r_map r) a) allf = []).
    { pose proof (isort_perm (fun a b : pystr => Nat.leb (length a) (length b))
        (filter (fun a => dmem streq (r_map r) a) allf)) as P.
      apply (f_equal (@rev _)) in E. rewrite rev_involutive in E. cbn [rev] in E. rewrite E in P.
      apply Permutation_nil, Permutation_sym, P. }
    assert (HN : forall f, In f forms -> lookup r f = None).
    { intros f Hf. unfold lookup. destruct (dget streq (r_map r) f) eqn:Ed; [|reflexivity].
      assert (Hin : In f (filter (fun a => dmem streq (r_map r) a) allf)).
      { apply filter_In. split; [now apply HA|]. unfold dmem. now rewrite Ed. }
      rewrite EN in Hin. destruct Hin. }
    assert (HF : forall f, In f forms -> lookup (mkReg (fold_left (fun m a => dset streq m a tg)
        (filter (fun a => negb (dmem streq (r_map r) a)) allf) (r_map r)) (r_obj r)) f = Some tg).
    { intros f Hf. unfold lookup. cbn [r_map]. rewrite fold_dset_get.
      rewrite (proj2 (existsb_filter_in _ _ _)); [reflexivity|]. split; [now apply HA|].
      unfold dmem. pose proof (HN f Hf) as Hn. unfold lookup in Hn. now rewrite Hn. }
    split; [intros f Hf; rewrite HF by exact Hf; discriminate|].
    split.
    + intros f Hf. unfold lookup. cbn [r_map]. rewrite fold_dset_get.
      rewrite (proj2 (existsb_streq_false _ _)); [reflexivity|].
      intros Hi. apply filter_In in Hi. apply Hf, HA, Hi.
    + left. split; [exact HN|]. split; [reflexivity|]. split; [reflexivity | exact HF].
  - destruct (last_longest _ _ _ E) as [Hk Hlong]. apply filter_In in Hk. destruct Hk as [Hk1 Hk2].
    unfold dmem in Hk2. destruct (dget streq (r_map r) k) as [v|] eqn:Ev; [|discriminate].
    destruct (merge_equivalent (r_obj r v) (r_obj r tg)) as [v' ok] eqn:Em.
    assert (HLong : forall f, In f forms -> lookup r f <> None -> length f <= length k).
    { intros f Hf Hn. apply Hlong, filter_In. split; [now apply HA|].
      unfold dmem. unfold lookup in Hn. destruct (dget streq (r_map r) f); congruence. }
    assert (HOther : forall ks o f, (forall a, In a ks -> In a forms) -> ~ In f forms ->
       dget streq (fold_left (fun m a => dset streq m a o) ks (r_map r)) f = lookup r f).
    { intros ks o f Hks Hf. rewrite fold_dset_get.
      rewrite (proj2 (existsb_streq_false _ _)); [reflexivity|]. intros Hi. apply Hf, Hks, Hi. }
    assert (HObj : (forall o, o <> v -> upd (r_obj r) v v' o = r_obj r o) /\ upd (r_obj r) v v' v = v').
    { unfold upd. split; [intros o Ho; now rewrite (proj2 (Nat.eqb_neq _ _) Ho) | now rewrite Nat.eqb_refl]. }
    destruct ok; injection H as <- <-.
    + assert (HF : forall f, In f forms ->
        dget streq (fold_left (fun m a => dset streq m a v)
          (filter (fun a => negb (dmem streq (r_map r) a)) allf) (r_map r)) f
        = match lookup r f with Some o => Some o | None => Some v end).
      { intros f Hf. rewrite fold_dset_get. unfold lookup.
        destruct (existsb (streq f) (filter (fun a => negb (dmem streq (r_map r) a)) allf)) eqn:Ef.
        - apply existsb_filter_in in Ef. destruct Ef as [_ Ef]. unfold dmem in Ef.
          destruct (dget streq (r_map r) f); [discriminate | reflexivity].
        - destruct (dget streq (r_map r) f) eqn:Eg; [reflexivity|]. exfalso.
          apply not_true_iff_false in Ef. apply Ef, existsb_filter_in. split; [now apply HA|].
          unfold dmem. now rewrite Eg. }
      split; [|split].
      * intros f Hf. unfold lookup at 1. cbn [r_map]. rewrite HF by exact Hf.
        destruct (lookup r f); discriminate.
      * intros f Hf. unfold lookup at 1. cbn [r_map]. apply HOther; [|exact Hf].
        intros a Ha. apply filter_In in Ha. apply HA, Ha.
      * right. exists k, v. split; [now apply HA|]. split; [exact Ev|]. split; [exact HLong|].
        cbn [r_obj fst snd]. rewrite Em. cbn [fst snd]. split; [apply HObj|]. split; [apply HObj|].
        split; [reflexivity|]. intros f Hf. unfold lookup at 1. cbn [r_map]. now apply HF.
    + assert (HF : forall f, In f forms ->
        dget streq (fold_left (fun m a => dset streq m a tg)
          (filter (fun a => negb (dmem streq (r_map r) a)) allf ++
           filter (fun a => dmem streq (r_map r) a) allf) (r_map r)) f = Some tg).
      { intros f Hf. rewrite fold_dset_get. rewrite (proj2 (existsb_streq _ _)); [reflexivity|].
        apply in_or_app. rewrite !filter_In. rewrite HA.
        destruct (dmem streq (r_map r) f); cbn [negb]; auto. }
      split; [|split].
      * intros f Hf. unfold lookup. cbn [r_map]. rewrite HF by exact Hf. discriminate.
      * intros f Hf. unfold lookup at 1. cbn [r_map]. apply HOther; [|exact Hf].
        intros a Ha. apply in_app_or in Ha. rewrite !filter_In in Ha. apply HA. tauto.
      * right. exists k, v. split; [now apply HA|]. split; [exact Ev|]. split; [exact HLong|].
        cbn [r_obj fst snd]. rewrite Em. cbn [fst snd]. split; [apply HObj|]. split; [apply HObj|].
        split; [reflexivity|]. intros f Hf. unfold lookup at 1. cbn [r_map]. now apply HF.
Qed.

(** Histories: calls of [add], and between them any change of any tag object. *)
Inductive reg_step : registry -> registry -> Prop :=
| step_add order r tg r' ret : set_order order -> add order r tg = (r', ret) -> reg_step r r'
| step_edit r objs : reg_step r (mkReg (r_map r) objs).

Theorem C17_history_keeps_keys r r' : clos_refl_trans _ reg_step r r' ->
  forall f, lookup r f <> None -> lookup r' f <> None.
Proof.
  induction 1 as [r r' H|r|r1 r2 r3 _ IH1 _ IH2]; intros f Hf; [|exact Hf | auto].
  destruct H as [order r tg r' ret HO HA | r objs]; [|exact Hf].
  destruct (C17_add_spec _ _ _ _ _ HO HA) as (H1 & H2 & _).
  destruct (in_dec (list_eq_dec N.eq_dec) f (allforms (r_obj r tg))) as [Hi|Hi].
  - now apply H1.
  - now rewrite H2.
Qed.

(** [add] answers with the object that at least one form of the tag now names, or there are
    no forms at all *)
Theorem C17_result_registered order r tg r' ret :
  set_order order -> add order r tg = (r', ret) -> allforms (r_obj r tg) <> [] ->
  exists f, In f (allforms (r_obj r tg)) /\ lookup r' f = Some ret.
Proof.
  intros HO HA Hne. destruct (C17_add_spec _ _ _ _ _ HO HA) as (_ & _ & H).
  destruct (allforms (r_obj r tg)) as [|f0 fs]; [congruence|].
  destruct H as [(_ & -> & _ & H)|(f & v & Hf & Ev & _ & _ & _ & H)].
  - exists f0. split; [left; reflexivity | apply H; left; reflexivity].
  - destruct (snd _); destruct H as [-> H].
    + exists f. split; [exact Hf|]. rewrite H by exact Hf. now rewrite Ev.
    + exists f. split; [exact Hf|]. now apply H.
Qed.

Example C17_example :
  let t0 := mkTag (Some (lit "sr")) (Some (lit "Cyrl")) None None None true false true [] in
  let t1 := mkTag (Some (lit "sr")) (Some (lit "Cyrl")) (Some (lit "RS")) None None true true true [] in
  let r0 := mkReg [] (fun o => if Nat.eqb o 0 then t0 else t1) in
  let '(r1, _) := add (fun l => l) r0 0 in
  let '(r2, ret) := add (fun l => l) r1 1 in
  ret = 0 /\ map fst (r_map r2) = [lit "sr"; lit "sr-Cyrl"; lit "sr-RS"; lit "sr-Cyrl-RS"] /\
  tag_repr (r_obj r2 0) = lit "sr-Cyrl-RS".
Proof. vm_compute. repeat split. Qed.

(** ** C48: the forms of a tag *)
Lemma join_concat c (gs : list (list pystr)) :
  Forall (fun g => g <> []) gs -> join [c] (map (join [c]) gs) = join [c] (concat gs).
Proof.
  induction 1 as [|g gs Hg H IH]; [reflexivity|].
  assert (J : forall (g h : list pystr), g <> [] -> h <> [] -> join [c] (g ++ h) = join [c] g ++ [c] ++ join [c] h).
  { clear. intros g h. induction g as [|x [|y g] IH]; intros Hg Hh; [congruence| |].
    - destruct h; [congruence | reflexivity].
    - change (join [c] ((x :: y :: g) ++ h)) with (x ++ [c] ++ join [c] ((y :: g) ++ h)).
      rewrite IH by (try assumption; discriminate).
      change (join [c] (x :: y :: g)) with (x ++ [c] ++ join [c] (y :: g)). now rewrite <- !app_assoc. }
  cbn [map concat]. destruct gs as [|g' gs].
  - cbn. now rewrite app_nil_r.
  - rewrite J; [|exact Hg|].
    + rewrite <- IH. reflexivity.
    + inversion H as [|? ? Hg' _]; subst. cbn [concat]. destruct g'; [congruence | discriminate].
Qed.

(** A tag whose lists are in the order [allforms] writes them and whose subtags are not
    empty; [allforms] drops an extension without members, so there are none. *)
Record tidy (t : tag) : Prop := {
  td_lang : forall l, t_lang t = Some l -> l <> [];
  td_script : forall s, t_script t = Some s -> s <> [];
  td_region : forall s, t_region t = Some s -> s <> [];
  td_vars : forall vs, t_vars t = Some vs ->
     NoDup vs /\ StronglySorted (fun a b => strleb a b = true) vs /\ Forall (fun v => v <> []) vs;
  td_exts : forall d, t_exts t = Some d ->
     NoDup (map fst d) /\ Forall (fun kv => fst kv <> [] /\ snd kv <> [] /\ Forall (fun m => m <> []) (snd kv) /\ NoDup (snd kv)) d
}.

Lemma regroup_step_new d k ms : ~ In k (dkeys d) -> ms <> [] ->
  fold_left (fun (d : list (pystr * list pystr)) (kv : pystr * pystr) => dset streq d (fst kv)
     ((match dget streq d (fst kv) with Some x => x | None => [] end) ++ [snd kv]))
     (map (fun x => (k, x)) ms) d = d ++ [(k, ms)].
Proof.
  intros Hk Hne. destruct ms as [|m ms]; [congruence|]. cbn [map fold_left fst snd].
  rewrite (proj2 (dget_None streq streq_spec d k) Hk), dset_fresh by exact Hk. cbn [app].
  assert (G : forall got, fold_left (fun (d : list (pystr * list pystr)) (kv : pystr * pystr) => dset streq d (fst kv)
     ((match dget streq d (fst kv) with Some x => x | None => [] end) ++ [snd kv]))
     (map (fun x => (k, x)) ms) (d ++ [(k, got)]) = d ++ [(k, got ++ ms)]).
  { induction ms as [|x ms IH]; intros got; cbn [map fold_left fst snd].
    - now rewrite app_nil_r.
    - rewrite dget_last, dset_last by exact Hk. rewrite IH by discriminate. now rewrite <- app_assoc. }
  apply G.
Qed.

Lemma regroup_pairs (d : list (pystr * list pystr)) : NoDup (dkeys d) -> Forall (fun kv => snd kv <> []) d ->
  regroup (flat_map (fun kv => map (fun x => (fst kv, x)) (snd kv)) d) = d.
Proof.
  intros ND HF. unfold regroup.
  assert (G : forall acc, NoDup (dkeys (acc ++ d)) ->
    fold_left (fun d kv => dset streq d (fst kv)
     ((match dget streq d (fst kv) with Some x => x | None => [] end) ++ [snd kv]))
     (flat_map (fun kv => map (fun x => (fst kv, x)) (snd kv)) d) acc = acc ++ d).
  { clear ND. induction HF as [|[k ms] d Hm HF IH]; intros acc ND; cbn [flat_map fst snd].
    - cbn. now rewrite app_nil_r.
    - rewrite fold_left_app. cbn [snd] in Hm.
      rewrite regroup_step_new; [|unfold dkeys in *; rewrite map_app in ND; cbn [map fst] in ND;
        apply NoDup_remove_2 in ND; intros Hi; apply ND, in_or_app; left; exact Hi | exact Hm].
      rewrite IH; rewrite <- app_assoc; [reflexivity | exact ND]. }
  apply (G []). exact ND.
Qed.

Lemma pair_eqb_true a b : pair_eqb a b = true <-> a = b.
Proof.
  destruct a as [a1 a2], b as [b1 b2]. unfold pair_eqb. cbn [fst snd].
  rewrite andb_true_iff, !streq_true. split; [intros [-> ->]; reflexivity | intros E; injection E; auto].
Qed.
Lemma pairdedup_id l : NoDup l -> pairdedup l = l.
Proof.
  unfold pairdedup. intros ND.
  assert (G : forall acc, NoDup (acc ++ l) ->
    fold_left (fun acc x => if existsb (pair_eqb x) acc then acc else acc ++ [x]) l acc = acc ++ l).
  { clear ND. induction l as [|y l IH]; intros acc ND; cbn [fold_left]; [now rewrite app_nil_r|].
    assert (E : existsb (pair_eqb y) acc = false).
    { apply not_true_iff_false. rewrite existsb_exists. intros (x & Hx & E). apply pair_eqb_true in E. subst x.
      apply NoDup_remove_2 in ND. apply ND, in_or_app. auto. }
    rewrite E, IH; rewrite <- app_assoc; [reflexivity | exact ND]. }
  apply (G []). exact ND.
Qed.

Lemma NoDup_pairs (d : list (pystr * list pystr)) : NoDup (map fst d) -> Forall (fun kv => NoDup (snd kv)) d ->
  NoDup (flat_map (fun kv => map (fun x => (fst kv, x)) (snd kv)) d).
Proof.
  intros ND HF. induction HF as [|[k ms] d Hm HF IH]; cbn [flat_map]; [constructor|].
  cbn [map fst] in ND. inversion ND as [|? ? Hk ND']; subst. cbn [fst snd] in *.
  apply (Permutation_NoDup (l := map (fun x => (k, x)) ms ++ flat_map (fun kv => map (fun x => (fst kv, x)) (snd kv)) d)); [reflexivity|].
  assert (G : forall ms', NoDup ms' -> NoDup (map (fun x : pystr => (k, x)) ms')).
  { induction 1; cbn [map]; constructor; [|assumption]. rewrite in_map_iff.
    intros (y & E & Hy). injection E as ->. contradiction. }
  specialize (IH ND'). specialize (G ms Hm).
  assert (Hdisj : forall p, In p (map (fun x : pystr => (k, x)) ms) ->
      In p (flat_map (fun kv => map (fun x => (fst kv, x)) (snd kv)) d) -> False).
  { intros p Hp Hq. apply in_map_iff in Hp. destruct Hp as (x & <- & _).
    apply in_flat_map in Hq. destruct Hq as ((k' & ms') & Hin & Hq). apply in_map_iff in Hq.
    destruct Hq as (y & E & _). cbn [fst] in E. injection E as -> _. apply Hk.
    apply in_map_iff. exists (k, ms'). auto. }
  revert G Hdisj. generalize (map (fun x : pystr => (k, x)) ms). clear -IH.
  induction l as [|p l IHl]; intros G Hd; [exact IH|]. cbn [app].
  inversion G; subst. constructor.
  - rewrite in_app_iff. intros [Hi|Hi]; [contradiction|]. apply (Hd p); [left; reflexivity | exact Hi].
  - apply IHl; [assumption|]. intros q Hq1 Hq2. apply (Hd q); [right|]; assumption.
Qed.

Lemma ext_form_tidy t d : tidy t -> t_exts t = Some d ->
  ext_form t = Some (join [HY] (ext_list t)).
Proof.
  intros HT E. destruct (td_exts t HT d E) as (ND & HF).
  unfold ext_form. rewrite E. f_equal.
  rewrite pairdedup_id; [|apply NoDup_pairs; [exact ND|]; eapply Forall_impl; [|exact HF]; intros a Ha; apply Ha].
  rewrite regroup_pairs; [|exact ND | eapply Forall_impl; [|exact HF]; intros a Ha; apply Ha].
  rewrite (ext_list_canon t d E), flat_map_concat_map, <- join_concat.
  - rewrite map_map. f_equal. unfold canon_exts, dkeys. rewrite (isort_map fst strleb), !map_map.
    apply map_ext_in. intros [k v] Hin. cbn [fst snd]. f_equal. f_equal. f_equal.
    apply in_isort in Hin. unfold dgetl. now rewrite (dget_NoDup_In streq streq_spec d k v ND Hin).
  - apply Forall_forall. intros g Hg. apply in_map_iff in Hg. destruct Hg as ([k v] & <- & _). discriminate.
Qed.

Lemma join_nonempty (l : list pystr) : l <> [] -> Forall (fun v => v <> []) l -> join [HY] l <> [].
Proof.
  intros Hne HF. destruct HF as [|x l Hx HF]; [congruence|].
  destruct l; cbn; destruct x; try congruence; discriminate.
Qed.

Lemma nonempty_opts_groups (ogs : list (option pystr * list pystr)) :
  Forall (fun og => match fst og with
                    | Some s => s = join [HY] (snd og) /\ Forall (fun v => v <> []) (snd og)
                    | None => snd og = [] end) ogs ->
  join [HY] (nonempty_opts (map fst ogs)) = join [HY] (concat (map snd ogs)).
Proof.
  intros H.
  assert (G : exists gs, nonempty_opts (map fst ogs) = map (join [HY]) gs /\
             Forall (fun g => g <> []) gs /\ concat gs = concat (map snd ogs)).
  { induction H as [|[o g] ogs Ho H IH]; [exists []; repeat split; constructor|].
    destruct IH as (gs & E1 & E2 & E3). cbn [map fst snd nonempty_opts flat_map concat] in *.
    destruct o as [s|].
    - destruct Ho as [-> Hg]. destruct g as [|x g].
      + exists gs. cbn [join app]. split; [exact E1|]. split; [exact E2 | exact E3].
      + assert (Hj : join [HY] (x :: g) <> []) by (apply join_nonempty; [discriminate | exact Hg]).
        exists ((x :: g) :: gs). split; [|split].
        * cbn [map]. destruct (join [HY] (x :: g)) eqn:Ej; [congruence|].
          unfold nonempty_opts in E1. rewrite E1. reflexivity.
        * constructor; [discriminate | exact E2].
        * cbn [concat]. now rewrite E3.
    - subst g. exists gs. split; [exact E1|]. split; [exact E2 | exact E3]. }
  destruct G as (gs & -> & Hgs & <-). now apply join_concat.
Qed.

Lemma form_join t s r : tidy t ->
  (forall x, s = Some x -> x <> []) -> (forall x, r = Some x -> x <> []) ->
  join [HY] (nonempty_opts [t_lang t; s; r; var_form t; ext_form t])
  = join [HY] (olist (t_lang t) ++ olist s ++ olist r ++ olists (t_vars t) ++ ext_list t).
Proof.
  intros HT Hs Hr.
  pose proof (nonempty_opts_groups
    [(t_lang t, olist (t_lang t)); (s, olist s); (r, olist r); (var_form t, olists (t_vars t));
     (ext_form t, ext_list t)]) as G.
  cbn [map fst snd concat] in G. rewrite app_nil_r in G. apply G. clear G.
  repeat apply Forall_cons; cbn [fst snd]; [| | | | | constructor].
  - destruct (t_lang t) as [l|] eqn:E; [|reflexivity]. split; [reflexivity|].
    repeat constructor. now apply (td_lang t HT).
  - destruct s as [l|]; [|reflexivity]. split; [reflexivity|]. repeat constructor. now apply Hs.
  - destruct r as [l|]; [|reflexivity]. split; [reflexivity|]. repeat constructor. now apply Hr.
  - unfold var_form. destruct (t_vars t) as [vs|] eqn:E; [|reflexivity].
    destruct (td_vars t HT vs E) as (H1 & H2 & H3). cbn [olists].
    rewrite strdedup_id, isort_id by assumption. split; [reflexivity | exact H3].
  - destruct (t_exts t) as [d|] eqn:E.
    + rewrite (ext_form_tidy t d HT E). split; [reflexivity|].
      rewrite (ext_list_canon t d E). destruct (td_exts t HT d E) as (ND & HF).
      apply Forall_forall. intros x Hx. apply in_flat_map in Hx. destruct Hx as ((k & ms) & Hin & Hx).
      unfold canon_exts in Hin. apply in_map_iff in Hin. destruct Hin as (k' & Ek & Hk). injection Ek as -> <-.
      apply in_isort in Hk. apply (dget_Some_iff streq streq_spec) in Hk. destruct Hk as [v Hv].
      rewrite Forall_forall in HF. pose proof (HF _ (dget_In streq streq_spec d k v Hv)) as (F1 & _ & F3 & _).
      cbn [fst snd] in *. destruct Hx as [<-|Hx]; [exact F1|]. apply in_isort in Hx.
      unfold dgetl in Hx. rewrite Hv in Hx. rewrite Forall_forall in F3. now apply F3.
    + unfold ext_form, ext_list. rewrite E. reflexivity.
Qed.

(** A form is the tag with a hidden (or missing) script and region left out, or written. *)
Definition shown (hidden : bool) (c : option pystr) (choice : option pystr) : Prop :=
  choice = c \/ (hidden = true /\ choice = None).

Theorem C48_forms t f : tidy t ->
  (In f (allforms t) <->
   exists s r, shown (t_hidescript t) (t_script t) s /\ shown (t_hideregion t) (t_region t) r /\
     (s <> None \/ r <> None \/ t_hideboth t = true) /\
     f = join [HY] (olist (t_lang t) ++ olist s ++ olist r ++ olists (t_vars t) ++ ext_list t)).
Proof.
  intros HT. unfold allforms, sr_choices. rewrite in_map_iff.
  assert (HS : forall s, In s (script_choices t) <-> shown (t_hidescript t) (t_script t) s).
  { intros s. unfold script_choices, shown. rewrite in_app_iff.
    destruct (t_hidescript t), (t_script t); cbn [orb isNone In]; intuition congruence. }
  assert (HR : forall s, In s (region_choices t) <-> shown (t_hideregion t) (t_region t) s).
  { intros s. unfold region_choices, shown. rewrite in_app_iff.
    destruct (t_hideregion t), (t_region t); cbn [orb isNone In]; intuition congruence. }
  assert (HN : forall s, shown (t_hidescript t) (t_script t) s -> forall x, s = Some x -> x <> []).
  { intros s [H|[_ H]] x E; subst s; [now apply (td_script t HT) | discriminate]. }
  assert (HM : forall s, shown (t_hideregion t) (t_region t) s -> forall x, s = Some x -> x <> []).
  { intros s [H|[_ H]] x E; subst s; [now apply (td_region t HT) | discriminate]. }
  split.
  - intros ([s r] & <- & Hin). apply filter_In in Hin. destruct Hin as [Hin Hc].
    apply in_prod_iff in Hin. destruct Hin as [H1 H2]. apply HS in H1. apply HR in H2.
    cbn [fst snd] in *. exists s, r. split; [exact H1|]. split; [exact H2|]. split.
    + destruct s, r, (t_hideboth t); cbn in Hc; try discriminate; intuition congruence.
    + apply form_join; [exact HT | now apply HN | now apply HM].
  - intros (s & r & H1 & H2 & Hc & ->). exists (s, r). cbn [fst snd]. split.
    + apply form_join; [exact HT | now apply HN | now apply HM].
    + apply filter_In. split; [apply in_prod_iff; split; [now apply HS | now apply HR]|].
      cbn [fst snd]. destruct s, r, (t_hideboth t); cbn; intuition congruence.
Qed.

(** The full form, and the short form that str() writes, are among the forms. *)
Theorem C48_full_form t : tidy t ->
  t_script t <> None \/ t_region t <> None \/ t_hideboth t = true ->
  In (tag_repr t) (allforms t).
Proof.
  intros HT H. apply C48_forms; [exact HT|]. exists (t_script t), (t_region t).
  split; [left; reflexivity|]. split; [left; reflexivity|]. split; [exact H | reflexivity].
Qed.

Theorem C48_str_form t : tidy t ->
  t_hideboth t = true \/ (t_script t <> None /\ t_hidescript t = false) \/
  (t_region t <> None /\ (t_hideregion t = false \/ t_hidescript t = true)) ->
  In (tag_str t) (allforms t).
Proof.
  intros HT H. apply C48_forms; [exact HT|].
  exists (if t_hidescript t then None else t_script t),
         (if (negb (t_hideregion t) || (negb (t_hideboth t) && t_hidescript t))%bool then t_region t else None).
  split; [|split; [|split]].
  - unfold shown. destruct (t_hidescript t); auto.
  - unfold shown. destruct (negb (t_hideregion t) || (negb (t_hideboth t) && t_hidescript t))%bool eqn:E; [auto|].
    right. destruct (t_hideregion t); [auto | discriminate].
  - destruct (t_hideboth t) eqn:Eb; [auto|]. cbn [negb andb].
    destruct (t_hidescript t) eqn:Es.
    + rewrite orb_true_r. intuition congruence.
    + rewrite orb_false_r. destruct (t_hideregion t); cbn [negb]; intuition congruence.
  - unfold tag_str, str_tags. destruct (t_hidescript t); cbn [olist];
      destruct (negb (t_hideregion t) || (negb (t_hideboth t) && _))%bool; reflexivity.
Qed.

(** The condition is needed: with [hideboth] false, a hidden script and no region, str() gives
    a form that the tag does not have. *)
Theorem C48_str_form_refuted :
  exists t, tidy t /\ t_script t <> None /\ ~ In (tag_str t) (allforms t).
Proof.
  exists (mkTag (Some (lit "en")) (Some (lit "Latn")) None None None true false false []).
  split; [|split; [discriminate|]].
  - constructor; cbn; intros x E; try discriminate; injection E as <-; discriminate.
  - cbn. intros [H|[]]. discriminate.
Qed.

(** Unsorted variants: the full form is not among the forms. *)
Theorem C48_variant_order_refuted :
  exists t, t_hideboth t = true /\ ~ In (tag_repr t) (allforms t).
Proof.
  exists (newtag (Some (lit "sr")) None None (Some [lit "ekavsk"; lit "baku1926"]) None).
  split; [reflexivity|]. cbn. intros [H|[]]. discriminate.
Qed.

Definition ex_tidy : tag :=
  mkTag (Some (lit "sr")) (Some (lit "Latn")) (Some (lit "RS")) (Some [lit "baku1926"; lit "ekavsk"])
         (Some [(lit "x", [lit "zeta"; lit "alpha"]); (lit "u", [lit "co"])]) true true true [].
Example C48_example : tidy ex_tidy /\ map tag_repr [ex_tidy] <> [] /\
  allforms ex_tidy = [lit "sr-baku1926-ekavsk-u-co-x-alpha-zeta"; lit "sr-RS-baku1926-ekavsk-u-co-x-alpha-zeta";
    lit "sr-Latn-baku1926-ekavsk-u-co-x-alpha-zeta"; lit "sr-Latn-RS-baku1926-ekavsk-u-co-x-alpha-zeta"].
Proof.
  split; [|split; [discriminate | reflexivity]].
  constructor; cbn; intros x E; injection E as <-; try discriminate.
  - split; [repeat constructor; cbn; intuition discriminate|].
    split; [repeat constructor | repeat constructor; discriminate].
  - split; [repeat constructor; cbn; intuition discriminate|].
    repeat constructor; try discriminate; cbn; intuition discriminate.
Qed.

(** Every form of a tag is a string the tag matches when it is parsed again: for tags in which
    no subtag can be mistaken for another when the script is left out. *)
Definition unambiguous (t : tag) : Prop :=
  (forall r, t_region t = Some r -> length r = 3 -> exists c r', r = c :: r' /\ is_digit c = true) /\
  (forall vs, t_vars t = Some vs -> forall v vs', vs = v :: vs' -> length v <> 4) /\
  (forall d, t_exts t = Some d -> StronglySorted (fun a b => strleb a b = true) (map fst d) /\
     Forall (fun kv => StronglySorted (fun a b => strleb a b = true) (snd kv)) d).

Lemma wf_reduced lower upper title t s r :
  well_formed lower upper title t -> unambiguous t ->
  shown (t_hidescript t) (t_script t) s -> shown (t_hideregion t) (t_region t) r ->
  well_formed lower upper title (set_region (set_script t s) r).
Proof.
  intros [W1 W2 W3 W4 W5] (U1 & U2 & _) Hs Hr. constructor; cbn [t_lang t_script t_region t_vars t_exts set_region set_script].
  - exact W1.
  - intros x E. destruct Hs as [->|[_ ->]]; [now apply W2 | discriminate].
  - intros x E. destruct Hr as [->|[_ ->]]; [|discriminate].
    destruct (W3 x E) as (A & B & C & _). split; [exact A|]. split; [exact B|]. split; [exact C|].
    intros _. now apply U1.
  - intros vs E. destruct (W4 vs E) as (A & B & _). split; [exact A|]. split; [exact B|].
    intros _. now apply (U2 vs).
  - exact W5.
Qed.

Lemma ovars_eqb_refl a : ovars_eqb a a = true.
Proof.
  destruct a as [a|]; [|reflexivity]. cbn.
  rewrite (proj2 (lcmp_eq strcmp strcmp_eq a a) eq_refl). reflexivity.
Qed.
Lemma oexts_eqb_refl a : (forall d, a = Some d -> NoDup (map fst d)) -> oexts_eqb a a = true.
Proof.
  destruct a as [d|]; [|reflexivity]. intros H. specialize (H d eq_refl). cbn. unfold dict_eqb.
  rewrite Nat.eqb_refl. cbn [andb]. apply forallb_forall. intros [k v] Hin. cbn [fst snd].
  rewrite (dget_NoDup_In streq streq_spec d k v H Hin). apply ovars_eqb_refl.
Qed.

Theorem C48_forms_match lower upper title t f :
  tidy t -> well_formed lower upper title t -> unambiguous t -> In f (allforms t) ->
  exists t', LangTag lower upper title f = Ok t' /\ matches t t' = true.
Proof.
  intros HT WF HU Hf. apply C48_forms in Hf; [|exact HT].
  destruct Hf as (s & r & Hs & Hr & _ & ->).
  pose proof (wf_reduced _ _ _ _ _ _ WF HU Hs Hr) as WR.
  change (join [HY] _) with (tag_repr (set_region (set_script t s) r)).
  rewrite (parse_repr _ _ _ _ WR). eexists. split; [reflexivity|].
  unfold matches. cbn [t_lang t_script t_region t_vars t_exts set_region set_script].
  rewrite ostreq_refl. cbn [negb].
  assert (Es : (negb (ostreq (t_script t) s) && negb (t_hidescript t && isNone s))%bool = false).
  { destruct Hs as [->|[-> ->]]; [now rewrite ostreq_refl | cbn; now rewrite andb_false_r]. }
  assert (Er : (negb (ostreq (t_region t) r) && negb (t_hideregion t && isNone r))%bool = false).
  { destruct Hr as [->|[-> ->]]; [now rewrite ostreq_refl | cbn; now rewrite andb_false_r]. }
  rewrite Es, Er, ovars_eqb_refl. cbn [negb].
  assert (Ee : option_map canon_exts (t_exts t) = t_exts t).
  { destruct HU as (_ & _ & U3). destruct (t_exts t) as [d|] eqn:E; [|reflexivity]. cbn [option_map].
    destruct (U3 d eq_refl) as [Hk Hm]. destruct (wf_exts _ _ _ _ WF d E) as (_ & ND & _).
    f_equal. unfold canon_exts, dkeys. rewrite isort_id by exact Hk. rewrite map_map.
    rewrite <- (map_id d) at 2. apply map_ext_in. intros [k v] Hin. cbn [fst].
    unfold dgetl. rewrite (dget_NoDup_In streq streq_spec d k v ND Hin).
    rewrite Forall_forall in Hm. rewrite isort_id; [reflexivity | apply (Hm _ Hin)]. }
  rewrite Ee, oexts_eqb_refl; [reflexivity|].
  intros d E. now destruct (wf_exts _ _ _ _ WF d E) as (_ & ND & _).
Qed.

(** ** C49: analyse *)
(** how many optional components a tag has *)
Definition rank (t : tag) : nat :=
  (if isNone (t_script t) then 0 else 1) + (if isNone (t_region t) then 0 else 1)
  + (if isNone (t_vars t) then 0 else 1) + (if isNone (t_exts t) then 0 else 1).

(** [t'] keeps the language and every set component of [t], except a region ZZ *)
Definition extends (t t' : tag) : Prop :=
  t_lang t' = t_lang t /\
  (t_script t <> None -> t_script t' = t_script t) /\
  (t_region t <> None -> t_region t <> Some ZZ -> t_region t' = t_region t) /\
  (t_vars t <> None -> t_vars t' = t_vars t) /\
  (forall k, ext_of t k <> None -> ext_of t' k = ext_of t k).

Lemma merge_extends t o : extends t (fst (merge_equivalent t o)).
Proof.
  destruct (merge_equivalent t o) as [r ok] eqn:E. cbn [fst].
  destruct ok.
  - destruct (C16_merge_true _ _ _ E) as (H1 & H2 & H3 & H4 & H5 & _).
    split; [exact H1|]. split; [|split; [|split]].
    + rewrite H2. destruct (t_script t); [reflexivity | congruence].
    + rewrite H3. destruct (t_region t); [reflexivity | congruence].
    + rewrite H4. destruct (t_vars t); [reflexivity | congruence].
    + intros k. rewrite H5. destruct (ext_of t k); [reflexivity | congruence].
  - destruct (C16_merge_false _ _ _ E) as (H1 & H2 & H3 & H4 & H5 & _).
    split; [exact H1|]. split; [auto|]. split; [auto|]. split; [auto|].
    intros k _. unfold ext_of. now rewrite H5.
Qed.

Lemma extends_refl t : extends t t.
Proof. repeat split. Qed.
Lemma extends_odd t t' : extends t t' -> extends t (oddities t').
Proof.
  intros H. unfold oddities. destruct (t_vars t') as [vs|] eqn:E; [|exact H].
  destruct (_ && _)%bool; [|exact H]. unfold extends in *. cbn [t_lang t_script t_region t_vars set_hidescript].
  unfold ext_of in *. cbn [t_exts set_hidescript]. exact H.
Qed.
Lemma extends_zz t t' : t_region t = Some ZZ -> extends (set_hideregion (set_region t None) false) t' -> extends t t'.
Proof.
  intros Hz (H1 & H2 & H3 & H4 & H5). unfold extends, ext_of in *. cbn in H1, H2, H4, H5.
  split; [exact H1|]. split; [exact H2|]. split; [congruence|]. split; [exact H4 | exact H5].
Qed.

(** analyse always ends: the recursion is bounded by the number of components. *)
Theorem C49_analyse_terminates all t : exists t', analyse (S (rank t)) all t = Some t'.
Proof.
  assert (G : forall fuel t, rank t < fuel -> exists t', analyse fuel all t = Some t').
  { clear t. induction fuel as [|fuel IH]; intros t Hr; [lia|]. cbn [analyse].
    destruct (dget streq all (tag_str t)) as [t'|]; [eauto|].
    assert (SP : forall u, (rank u < S fuel) -> exists t',
       match t_script u with
       | None => Some (oddities u)
       | Some _ =>
          match analyse fuel all (newtag (t_lang u) None (t_region u) (t_vars u) (t_exts u)) with
          | None => None
          | Some test =>
            if dmem streq all (tag_str test) then Some (oddities (fst (merge_equivalent u test)))
            else if (negb (isNone (t_vars u)) || negb (isNone (t_exts u)))%bool then
              match analyse fuel all (newtag (t_lang u) (t_script u) None None None) with
              | None => None
              | Some test2 => Some (oddities (fst (merge_equivalent u test2)))
              end
            else Some (oddities u)
          end
       end = Some t').
    { intros u Hu. destruct (t_script u) as [s|] eqn:Es; [|eauto].
      destruct (IH (newtag (t_lang u) None (t_region u) (t_vars u) (t_exts u))) as [test ->].
      { unfold rank in *. cbn [newtag t_script t_region t_vars t_exts isNone]. rewrite Es in Hu. cbn [isNone] in Hu. lia. }
      destruct (dmem streq all (tag_str test)); [eauto|].
      destruct (negb (isNone (t_vars u)) || negb (isNone (t_exts u)))%bool eqn:Ev; [|eauto].
      destruct (IH (newtag (t_lang u) (Some s) None None None)) as [test2 ->]; [|eauto].
      unfold rank in *. cbn [newtag t_script t_region t_vars t_exts isNone]. rewrite Es in Hu. cbn [isNone] in Hu.
      destruct (t_vars u), (t_exts u); cbn [isNone negb orb] in *; try discriminate; lia. }
    destruct (t_region t) as [r|] eqn:Er.
    - destruct (streq r ZZ).
      + apply SP. unfold rank in *. cbn [set_hideregion set_region t_script t_region t_vars t_exts isNone]. rewrite Er in Hr. cbn [isNone] in Hr. lia.
      + destruct (IH (newtag (t_lang t) (t_script t) None (t_vars t) (t_exts t))) as [test ->].
        { unfold rank in *. cbn [newtag t_script t_region t_vars t_exts isNone]. rewrite Er in Hr. cbn [isNone] in Hr. lia. }
        destruct (dmem streq all (tag_str test)); [eauto|].
        destruct (negb (isNone (t_vars t)) || negb (isNone (t_exts t)))%bool eqn:Ev; [|eauto].
        destruct (IH (newtag (t_lang t) None (Some r) None None)) as [test2 ->]; [|eauto].
        unfold rank in *. cbn [newtag t_script t_region t_vars t_exts isNone]. rewrite Er in Hr. cbn [isNone] in Hr.
        destruct (t_vars t), (t_exts t); cbn [isNone negb orb] in *; try discriminate; lia.
    - specialize (SP t Hr). rewrite Er in SP. exact SP. }
  apply G. lia.
Qed.

(** More fuel does not change the answer, so the bound above is only a bound. *)
Theorem C49_analyse_fuel all fuel : forall t t', analyse fuel all t = Some t' ->
  forall n, analyse (fuel + n) all t = Some t'.
Proof.
  induction fuel as [|fuel IH]; intros t t' H n; [discriminate|].
  cbn [analyse plus] in *. destruct (dget streq all (tag_str t)) as [t0|]; [exact H|].
  assert (A : forall u w, analyse fuel all u = Some w -> analyse (fuel + n) all u = Some w) by (intros; now apply IH).
  Ltac fuelcase A H :=
    repeat (match goal with
    | [ |- context [analyse (?f + ?n) ?all ?u] ] =>
        let E := fresh "E" in
        destruct (analyse f all u) eqn:E; [rewrite (A _ _ E) | discriminate H]
    | [ |- (if ?c then _ else _) = _ ] => destruct c
    end); exact H.
  destruct (t_region t) as [r|].
  - destruct (streq r ZZ).
    + destruct (t_script (set_hideregion (set_region t None) false)); fuelcase A H.
    + fuelcase A H.
  - destruct (t_script t); fuelcase A H.
Qed.

(** The answer is a registered tag found under the tag's own short form, or the tag itself with
    nothing lost. *)
Theorem C49_analyse_result all t t' fuel : analyse fuel all t = Some t' ->
  dget streq all (tag_str t) = Some t' \/
  (dget streq all (tag_str t) = None /\ extends t t').
Proof.
  destruct fuel as [|fuel]; [discriminate|]. cbn [analyse]. intros H.
  destruct (dget streq all (tag_str t)) as [t0|]; [left; congruence|]. right. split; [reflexivity|].
  assert (SP : forall u, match t_script u with
       | None => Some (oddities u)
       | Some _ =>
          match analyse fuel all (newtag (t_lang u) None (t_region u) (t_vars u) (t_exts u)) with
          | None => None
          | Some test =>
            if dmem streq all (tag_str test) then Some (oddities (fst (merge_equivalent u test)))
            else if (negb (isNone (t_vars u)) || negb (isNone (t_exts u)))%bool then
              match analyse fuel all (newtag (t_lang u) (t_script u) None None None) with
              | None => None
              | Some test2 => Some (oddities (fst (merge_equivalent u test2)))
              end
            else Some (oddities u)
          end
       end = Some t' -> extends u t').
  { clear H. intros u Hu. destruct (t_script u) as [s|] eqn:Es.
    - destruct (analyse fuel all _) as [test|]; [|discriminate].
      destruct (dmem streq all (tag_str test)).
      + injection Hu as <-. apply extends_odd, merge_extends.
      + destruct (_ || _)%bool.
        * destruct (analyse fuel all _) as [test2|]; [|discriminate]. injection Hu as <-.
          apply extends_odd, merge_extends.
        * injection Hu as <-. apply extends_odd, extends_refl.
    - injection Hu as <-. apply extends_odd, extends_refl. }
  destruct (t_region t) as [r|] eqn:Er.
  - destruct (streq_spec r ZZ) as [->|Hz].
    + apply extends_zz; [exact Er|]. apply SP. exact H.
    + destruct (analyse fuel all _) as [test|]; [|discriminate].
      destruct (dmem streq all (tag_str test)); [injection H as <-; apply merge_extends|].
      destruct (_ || _)%bool.
      * destruct (analyse fuel all _) as [test2|]; [|discriminate]. injection H as <-. apply merge_extends.
      * injection H as <-. apply extends_refl.
  - specialize (SP t). rewrite Er in SP. apply SP. exact H.
Qed.

(** The region is dropped first: if the tag without its region is registered (and listed under
    its own short form), the missing components come from it. *)
Theorem C49_from_parent all fuel t r p :
  dget streq all (tag_str t) = None -> t_region t = Some r -> r <> ZZ ->
  dget streq all (tag_str (newtag (t_lang t) (t_script t) None (t_vars t) (t_exts t))) = Some p ->
  dget streq all (tag_str p) <> None ->
  analyse (S (S fuel)) all t = Some (fst (merge_equivalent t p)).
Proof.
  intros H1 H2 H3 H4 H5. change (analyse (S (S fuel)) all t) with
    (match dget streq all (tag_str t) with
      | Some t => Some t
      | None =>
          let script_part (self : tag) : option tag :=
            match t_script self with
            | None => Some (oddities self)
            | Some _ =>
                match analyse (S fuel) all
                        (newtag (t_lang self) None (t_region self) (t_vars self) (t_exts self)) with
                | None => None
                | Some test =>
                    if dmem streq all (tag_str test)
                    then Some (oddities (fst (merge_equivalent self test)))
                    else if (negb (isNone (t_vars self)) || negb (isNone (t_exts self)))%bool then
                      match analyse (S fuel) all (newtag (t_lang self) (t_script self) None None None) with
                      | None => None
                      | Some test2 => Some (oddities (fst (merge_equivalent self test2)))
                      end
                    else Some (oddities self)
                end
            end in
          match t_region t with
          | None => script_part t
          | Some r =>
              if streq r ZZ then script_part (set_hideregion (set_region t None) false)
              else
                match analyse (S fuel) all
                        (newtag (t_lang t) (t_script t) None (t_vars t) (t_exts t)) with
                | None => None
                | Some test =>
                    if dmem streq all (tag_str test)
                    then Some (fst (merge_equivalent t test))
                    else if (negb (isNone (t_vars t)) || negb (isNone (t_exts t)))%bool then
                      match analyse (S fuel) all (newtag (t_lang t) None (t_region t) None None) with
                      | None => None
                      | Some test2 => Some (fst (merge_equivalent t test2))
                      end
                    else Some t
                end
          end
      end).
  rewrite H1, H2. rewrite (proj2 (streq_false r ZZ) H3).
  assert (E : analyse (S fuel) all (newtag (t_lang t) (t_script t) None (t_vars t) (t_exts t)) = Some p).
  { cbn [analyse]. rewrite H4. reflexivity. }
  rewrite E. unfold dmem. destruct (dget streq all (tag_str p)); [reflexivity | congruence].
Qed.

(** The phonetic variants: an unregistered tag without region, in Latin script, with one of
    them, has its script hidden. *)
Theorem C49_phonetic all fuel t t' vs v :
  dget streq all (tag_str t) = None -> t_region t = None -> t_script t = Some (lit "Latn") ->
  t_vars t = Some vs -> In v vs -> v = lit "fonipa" \/ v = lit "fonapa" \/ v = lit "fonupa" ->
  analyse fuel all t = Some t' -> t_hidescript t' = true.
Proof.
  intros H1 H2 H3 H4 Hv Hf H. destruct fuel as [|fuel]; [discriminate|]. cbn [analyse] in H.
  rewrite H1, H2, H3 in H.
  assert (G : forall u, extends t u -> t_hidescript (oddities u) = true).
  { intros u (_ & E1 & _ & E2 & _). unfold oddities. rewrite E2, H4 by (rewrite H4; discriminate).
    rewrite E1, H3 by (rewrite H3; discriminate).
    destruct (t_hidescript u) eqn:Eh; [exact Eh|].
    assert (X : existsb (fun v => existsb (streq v) vs) fon_variants = true).
    { apply existsb_exists. exists v. split; [|now apply existsb_streq].
      destruct Hf as [->|[->| ->]]; cbn; auto. }
    rewrite X. unfold ostreq, Latn. rewrite streq_refl. reflexivity. }
  destruct (analyse fuel all _) as [test|]; [|discriminate].
  destruct (dmem streq all (tag_str test)).
  - injection H as <-. apply G, merge_extends.
  - destruct (_ || _)%bool; [|injection H as <-; apply G, extends_refl].
    destruct (analyse fuel all _) as [test2|]; [|discriminate]. injection H as <-.
    apply G, merge_extends.
Qed.

Example C49_example :
  let reg := [(lit "sr", mkTag (Some (lit "sr")) (Some (lit "Cyrl")) (Some (lit "RS")) None None true true true [])] in
  let t := newtag (Some (lit "sr")) None (Some (lit "RS")) (Some [lit "ekavsk"]) None in
  exists t', analyse 4 reg t = Some t' /\ dget streq reg (tag_str t) = None /\ rank t = 2.
Proof. vm_compute. eexists. repeat split. Qed.
