(** Proof support for the language tag model. *)
From Verif Require Import Py PyFacts M_LangTags P_Collation2.
Local Open Scope nat_scope.

(** the normal form of an extensions dictionary, in the order [__repr__] writes it *)
Definition dgetl (d : list (pystr * list pystr)) k : list pystr :=
  match dget streq d k with Some l => l | None => [] end.
Definition canon_exts (d : list (pystr * list pystr)) : list (pystr * list pystr) :=
  map (fun ns => (ns, isort strleb (dgetl d ns))) (isort strleb (dkeys d)).

Lemma ext_list_canon t d : t_exts t = Some d ->
  ext_list t = flat_map (fun kv => fst kv :: snd kv) (canon_exts d).
Proof.
  intros E. unfold ext_list, canon_exts. rewrite E.
  induction (isort strleb (dkeys d)) as [|k l IH]; cbn [flat_map map fst snd]; [reflexivity|].
  rewrite IH. reflexivity.
Qed.

Lemma dkeys_canon d : dkeys (canon_exts d) = isort strleb (dkeys d).
Proof. unfold canon_exts, dkeys. rewrite map_map. cbn [fst]. apply map_id. Qed.

Lemma canon_NoDup d : NoDup (dkeys d) -> NoDup (dkeys (canon_exts d)).
Proof.
  intros H. rewrite dkeys_canon. eapply Permutation_NoDup; [apply isort_perm | exact H].
Qed.

Lemma dget_map_keys {V} (f : pystr -> V) l k :
  dget streq (map (fun n => (n, f n)) l) k = if existsb (streq k) l then Some (f k) else None.
Proof.
  induction l as [|x l IH]; cbn [map dget existsb]; [reflexivity|].
  destruct (streq_spec k x) as [->|H]; [reflexivity | exact IH].
Qed.

Lemma existsb_streq k l : existsb (streq k) l = true <-> In k l.
Proof.
  rewrite existsb_exists. split.
  - intros (x & Hin & E). apply streq_true in E. now subst.
  - intros H. exists k. split; [exact H | apply streq_refl].
Qed.
Lemma existsb_streq_false k l : existsb (streq k) l = false <-> ~ In k l.
Proof. rewrite <- existsb_streq. destruct (existsb (streq k) l); split; congruence. Qed.

Lemma dget_canon d k : dget streq (canon_exts d) k = option_map (isort strleb) (dget streq d k).
Proof.
  unfold canon_exts. rewrite (dget_map_keys (fun ns => isort strleb (dgetl d ns))).
  destruct (existsb (streq k) (isort strleb (dkeys d))) eqn:E.
  - apply existsb_streq in E. apply in_isort in E.
    apply (dget_Some_iff streq streq_spec) in E. destruct E as [v Hv].
    unfold dgetl. rewrite Hv. reflexivity.
  - apply existsb_streq_false in E. rewrite in_isort in E.
    apply (dget_None streq streq_spec) in E. rewrite E. reflexivity.
Qed.

Lemma strleb_sorted_isort l : isort strleb (isort strleb l) = isort strleb l.
Proof. apply isort_idem; [apply strleb_total | intros; eapply strleb_trans; eassumption]. Qed.

Lemma canon_canon d : canon_exts (canon_exts d) = canon_exts d.
Proof.
  unfold canon_exts at 1. rewrite dkeys_canon, strleb_sorted_isort.
  unfold canon_exts at 2. apply map_ext_in. intros k Hk. f_equal.
  unfold dgetl. rewrite dget_canon. destruct (dget streq d k) as [l|]; cbn [option_map].
  - apply strleb_sorted_isort.
  - reflexivity.
Qed.

(** ** len *)
Lemma fold_plus_perm l1 l2 : Permutation l1 l2 -> fold_right plus 0 l1 = fold_right plus 0 l2.
Proof. induction 1; cbn [fold_right]; lia. Qed.

Lemma length_flat_map_pairs (l : list (pystr * list pystr)) :
  length (flat_map (fun kv => fst kv :: snd kv) l) = fold_right plus 0 (map (fun kv => 1 + length (snd kv)) l).
Proof.
  induction l as [|[k v] l IH]; cbn [flat_map map fold_right fst snd]; [reflexivity|].
  cbn [length app]. rewrite app_length, IH. lia.
Qed.

Lemma canon_sizes d : NoDup (dkeys d) ->
  fold_right plus 0 (map (fun kv => 1 + length (snd kv)) (canon_exts d))
  = fold_right plus 0 (map (fun v => 1 + length v) (dvalues d)).
Proof.
  intros ND. unfold canon_exts. rewrite map_map. cbn [snd].
  transitivity (fold_right plus 0 (map (fun x => 1 + length (isort strleb (dgetl d x))) (dkeys d))).
  - apply fold_plus_perm, Permutation_map. symmetry. apply isort_perm.
  - f_equal. unfold dkeys, dvalues. rewrite !map_map. apply map_ext_in. intros [k v] Hin. cbn [fst snd].
    unfold dgetl. rewrite (dget_NoDup_In streq streq_spec d k v ND Hin).
    now rewrite <- (Permutation_length (isort_perm strleb v)).
Qed.

(** ** The variants and extensions loop *)
Section Case.
Variables lower upper title : pystr -> pystr.

Lemma ext_vars vs acc :
  Forall (fun v => lower v = v /\ length v <> 1) vs ->
  fold_left (ext_step lower) vs ([], [], acc) = ([], [], acc ++ vs).
Proof.
  intros H. revert acc. induction H as [|v vs (Hl & Hn) HF IH]; intros acc; cbn [fold_left].
  - now rewrite app_nil_r.
  - unfold ext_step at 2. apply Nat.eqb_neq in Hn. rewrite Hn, Hl, IH, <- app_assoc. reflexivity.
Qed.

Lemma dset_last {V} (d : list (pystr * V)) k v w :
  ~ In k (dkeys d) -> dset streq (d ++ [(k, v)]) k w = d ++ [(k, w)].
Proof.
  induction d as [|[k' v'] d IH]; cbn [dkeys map app dset fst]; intros H.
  - now rewrite streq_refl.
  - destruct (streq_spec k k') as [->|Hn]; [exfalso; apply H; left; reflexivity|].
    rewrite IH; [reflexivity|]. intros Hi. apply H. right. exact Hi.
Qed.
Lemma dget_last {V} (d : list (pystr * V)) k v :
  ~ In k (dkeys d) -> dget streq (d ++ [(k, v)]) k = Some v.
Proof.
  induction d as [|[k' v'] d IH]; cbn [dkeys map app dget fst]; intros H.
  - now rewrite streq_refl.
  - destruct (streq_spec k k') as [->|Hn]; [exfalso; apply H; left; reflexivity|].
    apply IH. intros Hi. apply H. right. exact Hi.
Qed.

Lemma ext_members c k ms ex acc got :
  ~ In (c :: k) (dkeys ex) ->
  Forall (fun v => lower v = v /\ length v <> 1) ms ->
  fold_left (ext_step lower) ms (c :: k, ex ++ [(c :: k, got)], acc)
  = (c :: k, ex ++ [(c :: k, got ++ ms)], acc).
Proof.
  intros Hk H. revert got. induction H as [|v vs (Hl & Hn) HF IH]; intros got; cbn [fold_left].
  - now rewrite app_nil_r.
  - unfold ext_step at 2. apply Nat.eqb_neq in Hn. rewrite Hn, Hl.
    rewrite dget_last, dset_last by exact Hk. rewrite IH, <- app_assoc. reflexivity.
Qed.

Lemma ext_groups gs ns ex acc :
  NoDup (dkeys (ex ++ gs)) ->
  Forall (fun kv => length (fst kv) = 1 /\ lower (fst kv) = fst kv /\
                    Forall (fun v => lower v = v /\ length v <> 1) (snd kv)) gs ->
  exists ns', fold_left (ext_step lower) (flat_map (fun kv => fst kv :: snd kv) gs) (ns, ex, acc)
              = (ns', ex ++ gs, acc).
Proof.
  intros ND H. revert ns ex ND. induction H as [|[k ms] gs (H1 & H2 & H3) HF IH]; intros ns ex ND.
  - exists ns. cbn. now rewrite app_nil_r.
  - cbn [fst snd] in *. cbn [flat_map fst snd]. rewrite fold_left_app.
    assert (Hk : ~ In k (dkeys ex)).
    { unfold dkeys in *. rewrite map_app in ND. cbn [map fst] in ND.
      apply NoDup_remove_2 in ND. intros Hi. apply ND. apply in_or_app. left. exact Hi. }
    cbn [fold_left]. unfold ext_step at 3. rewrite H1. cbn [Nat.eqb]. rewrite H2.
    rewrite dset_fresh by exact Hk.
    destruct k as [|c k]; [discriminate H1|].
    rewrite ext_members by assumption. cbn [app].
    destruct (IH (c :: k) (ex ++ [(c :: k, ms)])) as [ns' E].
    + rewrite <- app_assoc. exact ND.
    + exists ns'. rewrite E, <- app_assoc. reflexivity.
Qed.

End Case.

(** ** sets as lists *)
Lemma strdedup_gen l acc :
  NoDup acc ->
  let r := fold_left (fun acc x => if existsb (streq x) acc then acc else acc ++ [x]) l acc in
  NoDup r /\ forall x, In x r <-> In x acc \/ In x l.
Proof.
  revert acc. induction l as [|y l IH]; intros acc ND; cbn [fold_left].
  - split; [exact ND|]. intros x. cbn [In]. tauto.
  - destruct (existsb (streq y) acc) eqn:E.
    + apply existsb_streq in E. destruct (IH acc ND) as [H1 H2]. split; [exact H1|].
      intros x. rewrite H2. cbn [In]. split; [tauto|]. intros [H|[H|H]]; [tauto | subst; tauto | tauto].
    + apply existsb_streq_false in E.
      assert (ND' : NoDup (acc ++ [y])).
      { eapply Permutation_NoDup; [apply Permutation_cons_append|]. constructor; assumption. }
      destruct (IH _ ND') as [H1 H2]. split; [exact H1|].
      intros x. rewrite H2, in_app_iff. cbn [In]. tauto.
Qed.
Lemma strdedup_NoDup l : NoDup (strdedup l).
Proof. apply (strdedup_gen l []). constructor. Qed.
Lemma in_strdedup l x : In x (strdedup l) <-> In x l.
Proof.
  destruct (strdedup_gen l [] (NoDup_nil _)) as [_ H]. unfold strdedup. rewrite H. cbn [In]. tauto.
Qed.
Lemma strdedup_id_gen l acc : NoDup (acc ++ l) ->
  fold_left (fun acc x => if existsb (streq x) acc then acc else acc ++ [x]) l acc = acc ++ l.
Proof.
  revert acc. induction l as [|y l IH]; intros acc ND; cbn [fold_left].
  - now rewrite app_nil_r.
  - assert (E : existsb (streq y) acc = false).
    { apply existsb_streq_false. intros Hi. apply NoDup_remove_2 in ND. apply ND, in_or_app. auto. }
    rewrite E, IH; rewrite <- app_assoc; [reflexivity | exact ND].
Qed.
Lemma strdedup_id l : NoDup l -> strdedup l = l.
Proof. intros H. apply (strdedup_id_gen l [] H). Qed.

(** ** setting many keys to one object *)
Lemma fold_dset_get (ks : list pystr) (m : list (pystr * nat)) v k :
  dget streq (fold_left (fun m a => dset streq m a v) ks m) k
  = if existsb (streq k) ks then Some v else dget streq m k.
Proof.
  revert m. induction ks as [|a ks IH]; intros m; cbn [fold_left existsb]; [reflexivity|].
  rewrite IH. rewrite (dget_dset streq streq_spec).
  destruct (existsb (streq k) ks); [now rewrite orb_true_r | now rewrite orb_false_r].
Qed.
