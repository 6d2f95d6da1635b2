(** Properties of keyboards that can be loaded (C42, C54). *)
From Verif Require Import Py PyFacts M_UnicodeSets M_Flatten M_Keyboard.
Local Open Scope list_scope.
Local Open Scope nat_scope.

(** ** Specification *)

(** the elements of a keyboard with the imported files in the place of the imports *)
Fixpoint inlined (e : kelem) : list kelem :=
  match e with
  | Import es => flat_map inlined es
  | _ => [e]
  end.

(** the patterns (attribute from) of all transforms of an element *)
Definition patterns (e : kelem) : list (option pystr) :=
  match e with
  | Transforms _ fs | Reorders fs | Backspaces fs => fs
  | _ => []
  end.
(** whether an element is a table of this name *)
Definition is_table (name : pystr) (e : kelem) : Prop :=
  match e with
  | Transforms ty _ => ty = Some name
  | Reorders _ => name = lit "reorder"
  | Backspaces _ => name = lit "backspace"
  | _ => False
  end.

(** the last element of a list that satisfies [p] *)
Fixpoint last_such {A} (p : A -> bool) (l : list A) : option A :=
  match l with
  | [] => None
  | x :: l' => match last_such p l' with
               | Some y => Some y
               | None => if p x then Some x else None
               end
  end.

(** the keys of the last key map for these modifiers, in any order. The modifiers of a key map
    are all the names in its attribute, whether separated by white space or by "+" *)
Definition map_for (ws : N -> bool) (lower : pystr -> pystr) (mods : list pystr) (e : kelem) : bool :=
  match e with
  | KeyMap (Some s) _ => streq (join [32%N] (isort strleb (all_mods ws lower s)))
                               (join [32%N] (isort strleb mods))
  | KeyMap None _ => streq [] (join [32%N] (isort strleb mods))
  | _ => false
  end.
(** the text a key stands for: that of its last entry, nothing without an entry *)
Definition key_text (ws : N -> bool) (lower : pystr -> pystr) (es : list kelem)
           (key : pystr * list pystr) : res pystr :=
  match last_such (map_for ws lower (snd key)) (flat_map inlined es) with
  | Some (KeyMap _ keys) =>
      match last_such (fun kv : option pystr * option pystr => optstr_eqb (Some (fst key)) (fst kv)) keys with
      | Some (_, Some v) => struni v
      | Some (_, None) => Raise TypeError
      | None => Ok []
      end
  | _ => Ok []
  end.

(** what is to be seen after each keystroke, [typed] being the texts of all keys so far and
    [visible] what is seen at the moment: the backspace key takes one character off what is
    seen, any other key brings all that was typed *)
Fixpoint seen (typed visible : pystr) (keys : list ((pystr * list pystr) * pystr)) : list pystr :=
  match keys with
  | [] => []
  | ((k, _), x) :: keys' =>
      let now := if streq k bksp then removelast visible else typed ++ x in
      now :: seen (typed ++ x) now keys'
  end.

(** ** Loading *)

Lemma parse_loop_nonempty ud fuel : forall s i acc chars,
  parse_loop ud fuel s i acc = Ok chars ->
  Forall (fun u => us_items u <> []) acc -> Forall (fun u => us_items u <> []) chars.
Proof.
  induction fuel as [|f IH]; intros s i acc chars; cbn [parse_loop].
  - destruct (Nat.ltb i (length s)); [discriminate|]. intros E; injection E as <-; auto.
  - destruct (Nat.ltb i (length s)); [|intros E; injection E as <-; auto].
    destruct (parseitem ud (length s) s i None (length s)) as [[[i' l'] [u|]]|]; cbn [bind]; try discriminate.
    intros E HF. apply IH in E; auto.
    unfold truthy. destruct (us_items u) eqn:Eu; auto.
    apply Forall_app; split; auto. constructor; auto. congruence.
Qed.

Lemma us_parse_nonempty ud s chars :
  us_parse ud s = Ok chars -> Forall (fun u => us_items u <> []) chars.
Proof.
  unfold us_parse. destruct (hexescre_sub s) as [s1|]; cbn [bind]; [|discriminate].
  destruct (hexgre_sub s1) as [s2|]; cbn [bind]; [|discriminate].
  intros E. eapply parse_loop_nonempty; eauto.
Qed.

Lemma fold_raise {A B} (f : A -> B -> res A) e l :
  fold_left (fun acc j => do a <- acc; f a j) l (Raise e) = Raise e.
Proof. induction l; auto. Qed.

Lemma add_keys_fold ls : forall ks x,
  dget streq (fold_left (fun ks l => if dmem streq ks l then ks else dset streq ks l new_rule) ls ks) x
  <> None <-> dget streq ks x <> None \/ In x ls.
Proof.
  induction ls as [|l ls IH]; intros ks x; cbn [fold_left].
  - tauto.
  - rewrite IH. cbn [In]. unfold dmem.
    destruct (dget streq ks l) eqn:E.
    + split; intros [H|H]; auto. destruct H as [<-|H]; auto; left; congruence.
    + destruct (streq_spec x l) as [->|n].
      * rewrite (dget_dset_same _ streq_spec). split; intros _; [auto|left; discriminate].
      * rewrite (dget_dset_other _ streq_spec) by auto.
        split; intros [H|H]; auto. destruct H as [H|H]; auto; congruence.
Qed.

Lemma step_jobs_some k j n : us_items k <> [] -> step_jobs k j = Ok n -> n <> [].
Proof.
  unfold step_jobs. intros Hk. destruct (us_plain k); [discriminate|].
  destruct (us_neg k); intros E; injection E as <-.
  - destruct (map _ _); cbn; discriminate.
  - destruct (us_items k) as [|x l] eqn:Ek; [congruence|]. intros C.
    assert (Hd : dget streq (r_kids (add_keys j (x :: l))) x <> None).
    { unfold add_keys, with_kids. cbn [r_kids]. apply add_keys_fold. right; left; auto. }
    destruct (dget streq (r_kids (add_keys j (x :: l))) x) as [r|] eqn:Er; [|congruence].
    apply (dget_In _ streq_spec) in Er.
    assert (Hin : In (x, r) (filter (fun kr => smem (fst kr) (x :: l)) (r_kids (add_keys j (x :: l))))).
    { apply filter_In. split; auto. cbn [fst]. unfold smem. cbn [existsb]. rewrite streq_refl. auto. }
    apply (in_map snd) in Hin. unfold add_keys, with_kids in Hin. cbn [r_kids] in Hin. cbn [add_keys with_kids r_kids] in C. rewrite C in Hin. contradiction.
Qed.

Lemma append_jobs_raises chars : forall jobs,
  chars <> [] -> jobs <> [] -> Forall (fun u => us_items u <> []) chars ->
  exists e, append_jobs chars jobs = Raise e.
Proof.
  induction chars as [|k chars IH]; intros jobs H1 H2 HF; [congruence|].
  inversion_clear HF. cbn [append_jobs].
  set (f := fun (a : list rule) j => do n <- step_jobs k j;
            do _ <- (match chars with [] => unpack_jobs (a ++ n) | _ => Ok tt end); Ok (a ++ n)).
  change (exists e, (do newjobs <- fold_left (fun acc j => do a <- acc; f a j) jobs (Ok []);
                     append_jobs chars newjobs) = Raise e).
  destruct chars as [|k2 chars].
  - destruct jobs as [|j jobs]; [congruence|]. cbn [fold_left bind].
    assert (Hf : exists e, f [] j = Raise e).
    { unfold f. destruct (step_jobs k j) as [n|e] eqn:En; cbn [bind]; eauto.
      apply step_jobs_some in En; auto. destruct n as [|r n]; [congruence|].
      cbn [app unpack_jobs]. destruct (Nat.eqb (length (r_kids r)) 2); cbn [bind]; eauto. }
    destruct Hf as [e ->]. rewrite (fold_raise f). cbn [bind]. eauto.
  - assert (Hf : forall l acc, (acc <> [] \/ l <> []) ->
                 match fold_left (fun acc j => do a <- acc; f a j) l (Ok acc) with
                 | Ok n => n <> [] | Raise _ => True end).
    { induction l as [|j l IHl]; intros acc Ha; cbn [fold_left bind]; [destruct Ha; congruence|].
      unfold f at 2. destruct (step_jobs k j) as [n|e] eqn:En; cbn [bind].
      - apply IHl. left. apply step_jobs_some in En; auto. destruct acc, n; cbn; congruence.
      - rewrite (fold_raise f). auto. }
    specialize (Hf jobs [] (or_intror H2)).
    destruct (fold_left _ jobs (Ok [])) as [n|e]; cbn [bind]; eauto.
    apply IH; auto. discriminate.
Qed.

(** C54: no transform is ever added to a table: a pattern that stands for some text is
    refused, and the others change nothing. *)
Theorem C54_append : forall ud rs from,
  match rules_append ud rs from with
  | Ok rs' => rs' = rs /\ rs_reverse rs = false /\
              exists f, from = Some f /\ us_parse ud f = Ok []
  | Raise _ => True
  end.
Proof.
  intros ud rs [f|]; cbn [rules_append]; auto.
  destruct (us_parse ud f) as [chars|] eqn:E; cbn [bind]; auto.
  destruct (rs_reverse rs) eqn:Er; cbn [bind]; auto.
  destruct chars as [|k chars].
  - cbn. eauto.
  - destruct (append_jobs_raises (k :: chars) [rs_trie rs]) as [e He]; try discriminate.
    + eapply us_parse_nonempty; eauto.
    + rewrite He. cbn [bind]. auto.
Qed.

Example append_refused : rules_append (fun _ => false) (mkRules new_rule false) (Some (lit "ab"))
  = Raise ValueError := eq_refl.
Example append_nothing : rules_append (fun _ => false) (mkRules new_rule false) (Some (lit " "))
  = Ok (mkRules new_rule false) := eq_refl.

Lemma optstr_eqb_spec a b : reflect (a = b) (optstr_eqb a b).
Proof.
  destruct a as [a|], b as [b|]; cbn; try (constructor; congruence).
  destruct (streq_spec a b); constructor; congruence.
Qed.

(** Every pattern is empty and every table has an empty trie. *)
Definition bare (kb : keyboard) : Prop :=
  forall ty rs, dget optstr_eqb (k_trans kb) ty = Some rs -> rs_trie rs = new_rule.

Lemma kelem_ind' (P : kelem -> Prop)
  (H1 : forall m k, P (KeyMap m k)) (H2 : forall t f, P (Transforms t f)) (H3 : forall f, P (Reorders f))
  (H4 : forall f, P (Backspaces f)) (H5 : forall a, P (Settings a))
  (H6 : forall es, Forall P es -> P (Import es)) (H7 : P OtherElem) : forall e, P e.
Proof.
  fix IH 1. intros [m k|t f|f|f|a|es|].
  - apply H1.
  - apply H2.
  - apply H3.
  - apply H4.
  - apply H5.
  - apply H6. induction es as [|e es IHes]; constructor; [apply IH|exact IHes].
  - apply H7.
Qed.

Section Loading.
  Variable ud ws : N -> bool.
  Variable lower : pystr -> pystr.
  Let run es kb := fold_left (fun acc e => do k <- acc; load_elem ud ws lower e k) es (Ok kb).

  Lemma run_cons e es kb : run (e :: es) kb =
    match load_elem ud ws lower e kb with Ok k => run es k | Raise x => Raise x end.
  Proof.
    unfold run. cbn [fold_left bind]. destruct (load_elem ud ws lower e kb); auto.
    apply (fold_raise (fun k e => load_elem ud ws lower e k)).
  Qed.
  Lemma run_app a : forall b kb, run (a ++ b) kb =
    match run a kb with Ok k => run b k | Raise x => Raise x end.
  Proof.
    induction a as [|e a IH]; intros b kb; [reflexivity|].
    rewrite <- app_comm_cons, !run_cons. destruct (load_elem ud ws lower e kb); auto.
  Qed.
  (** an import is the same as its elements *)
  Lemma load_inlined e : forall kb, load_elem ud ws lower e kb = run (inlined e) kb.
  Proof.
    induction e as [m k|t f|f|f|a|es HF|] using kelem_ind'; intros kb;
      try (unfold run; cbn [inlined fold_left bind]; reflexivity).
    cbn [inlined]. change (load_elem ud ws lower (Import es) kb) with (run es kb).
    revert kb. induction HF as [|e es He HF IH]; intros kb; [reflexivity|].
    cbn [flat_map]. rewrite run_cons, run_app, He. destruct (run (inlined e) kb); auto.
  Qed.
  Lemma load_flat es : load ud ws lower es = run (flat_map inlined es) empty_keyboard.
  Proof.
    unfold load. change (run es empty_keyboard = run (flat_map inlined es) empty_keyboard).
    generalize empty_keyboard. induction es as [|e es IH]; intros kb; [reflexivity|].
    cbn [flat_map]. rewrite run_cons, run_app, load_inlined. destruct (run (inlined e) kb); auto.
  Qed.
  Lemma inlined_flat e : Forall (fun x => forall es, x <> Import es) (inlined e).
  Proof.
    induction e as [m k|t f|f|f|a|es HF|] using kelem_ind'; cbn [inlined];
      try (repeat constructor; intros; discriminate).
    induction HF; cbn [flat_map]; auto. apply Forall_app; auto.
  Qed.

  Lemma fold_append fs : forall rs rs',
    fold_left (fun acc f => do r <- acc; rules_append ud r f) fs (Ok rs) = Ok rs' ->
    rs' = rs /\ Forall (fun f => rs_reverse rs = false /\ exists s, f = Some s /\ us_parse ud s = Ok []) fs.
  Proof.
    induction fs as [|f fs IH]; intros rs rs'; cbn [fold_left bind].
    - intros E; injection E as <-; auto.
    - pose proof (C54_append ud rs f) as HA. destruct (rules_append ud rs f) as [r|e].
      + destruct HA as (-> & Hr & Hs). intros E. apply IH in E as [-> HF]. auto.
      + intros E. rewrite (fold_raise (rules_append ud)) in E. discriminate.
  Qed.

  Lemma add_rules_bare kb ty fs kb' :
    bare kb -> add_rules ud kb ty fs = Ok kb' ->
    bare kb' /\ Forall (fun f => exists s, f = Some s /\ us_parse ud s = Ok []) fs /\
    k_maps kb' = k_maps kb /\ k_mods kb' = k_mods kb /\ k_settings kb' = k_settings kb /\
    (forall t, dget optstr_eqb (k_trans kb') t <> None <->
               dget optstr_eqb (k_trans kb) t <> None \/ t = ty).
  Proof.
    intros Hb. unfold add_rules.
    set (rs0 := match dget optstr_eqb (k_trans kb) ty with Some _ => _ | None => _ end).
    destruct (fold_left _ fs (Ok rs0)) as [rs|] eqn:E; cbn [bind]; [|discriminate].
    apply fold_append in E as [-> HF]. intros E; injection E as <-. cbn.
    split; [|split; [|repeat split; auto]].
    - intros t rs. cbn [k_trans]. destruct (optstr_eqb_spec t ty) as [->|n].
      + rewrite (dget_dset_same _ optstr_eqb_spec). intros E; injection E as <-.
        unfold rs0. destruct (dget optstr_eqb (k_trans kb) ty) eqn:E; cbn; eauto.
      + rewrite (dget_dset_other _ optstr_eqb_spec) by auto. apply Hb.
    - eapply Forall_impl; [|apply HF]. cbn. intuition.
    - destruct (optstr_eqb_spec t ty) as [->|n]; auto.
      rewrite (dget_dset_other _ optstr_eqb_spec) by auto. auto.
    - destruct (optstr_eqb_spec t ty) as [->|n].
      + rewrite (dget_dset_same _ optstr_eqb_spec). discriminate.
      + rewrite (dget_dset_other _ optstr_eqb_spec) by auto. intuition.
  Qed.

  Lemma load_elem_bare e kb kb' :
    (forall es, e <> Import es) ->
    bare kb -> load_elem ud ws lower e kb = Ok kb' ->
    bare kb' /\ Forall (fun f => exists s, f = Some s /\ us_parse ud s = Ok []) (patterns e) /\
    (forall t, dget optstr_eqb (k_trans kb') (Some t) <> None <->
               dget optstr_eqb (k_trans kb) (Some t) <> None \/ is_table t e).
  Proof.
    intros Hi Hb. destruct e as [m k|t f|f|f|a|es|]; cbn [load_elem patterns is_table].
    - destruct m as [s|]; cbn [bind].
      + destruct (parse_modifiers ws lower s); cbn [bind]; [|discriminate].
        intros E; injection E as <-. repeat split; auto. cbn. intuition.
      + intros E; injection E as <-. repeat split; auto. cbn. intuition.
    - intros E. apply add_rules_bare in E as (H1 & H2 & _ & _ & _ & H3); auto.
      split; [auto|split; [auto|]]. intros x. rewrite H3. intuition congruence.
    - intros E. apply add_rules_bare in E as (H1 & H2 & _ & _ & _ & H3); auto.
      split; [auto|split; [auto|]]. intros x. rewrite H3. intuition congruence.
    - intros E. apply add_rules_bare in E as (H1 & H2 & _ & _ & _ & H3); auto.
      split; [auto|split; [auto|]]. intros x. rewrite H3. intuition congruence.
    - intros E; injection E as <-. repeat split; auto. cbn. intuition.
    - destruct (Hi es eq_refl).
    - intros E; injection E as <-. repeat split; auto. intuition.
  Qed.

  Lemma run_bare es : forall kb kb',
    Forall (fun x => forall es, x <> Import es) es ->
    bare kb -> run es kb = Ok kb' ->
    bare kb' /\
    (forall e, In e es -> Forall (fun f => exists s, f = Some s /\ us_parse ud s = Ok []) (patterns e)) /\
    (forall t, dget optstr_eqb (k_trans kb') (Some t) <> None <->
               dget optstr_eqb (k_trans kb) (Some t) <> None \/ exists e, In e es /\ is_table t e).
  Proof.
    induction es as [|e es IH]; intros kb kb' HF Hb.
    - cbn. intros E; injection E as <-. split; [auto|split; [intros ? []|]].
      intros t; split; auto. intros [H|(? & [] & _)]; auto.
    - inversion_clear HF. rewrite run_cons. destruct (load_elem ud ws lower e kb) as [k|] eqn:E; [|discriminate].
      intros Hr. apply load_elem_bare in E as (H1 & H2 & H3); auto.
      apply IH in Hr as (H4 & H5 & H6); auto. repeat split; auto.
      + intros x [<-|Hx]; auto.
      + rewrite H6, H3. intros [[H'|H']|(x & Hx & Ht)]; eauto.
        * right. exists e. cbn; auto.
        * right. exists x. cbn; auto.
      + rewrite H6, H3. intros [H'|(x & [<-|Hx] & Ht)]; eauto.
  Qed.
End Loading.

(** C54: a keyboard that loads has only transforms that stand for no text at all, so all its
    tables are empty. *)
Theorem C54_load : forall ud ws lower es kb,
  load ud ws lower es = Ok kb ->
  (forall e from, In e (flat_map inlined es) -> In from (patterns e) ->
     exists f, from = Some f /\ us_parse ud f = Ok []) /\
  (forall name, table kb name = None \/ table kb name = Some new_rule) /\
  (forall name, table kb name <> None <-> exists e, In e (flat_map inlined es) /\ is_table name e).
Proof.
  intros ud ws lower es kb E. rewrite load_flat in E.
  apply run_bare in E as (H1 & H2 & H3).
  - split; [|split].
    + intros e f He Hf. specialize (H2 e He). rewrite Forall_forall in H2. auto.
    + intros name. unfold table. destruct (dget _ _ _) as [rs|] eqn:E; cbn; auto.
      right. f_equal. eapply H1; eauto.
    + intros name. unfold table.
      assert (Hx : option_map rs_trie (dget optstr_eqb (k_trans kb) (Some name)) <> None <->
                   dget optstr_eqb (k_trans kb) (Some name) <> None)
        by (destruct (dget _ _ _); cbn; split; congruence).
      rewrite Hx, H3. cbn. split; [intros [C|C]; auto; congruence|auto].
  - apply Forall_forall. intros x Hx. apply in_flat_map in Hx as (e & _ & Hx).
    pose proof (inlined_flat e) as HF. rewrite Forall_forall in HF. auto.
  - intros ty rs. cbn. discriminate.
Qed.

(** ** The key maps *)

Lemma last_such_app {A} (p : A -> bool) a x :
  last_such p (a ++ [x]) = if p x then Some x else last_such p a.
Proof.
  induction a as [|y a IH]; cbn; [destruct (p x); auto|].
  rewrite IH. destruct (p x); auto.
Qed.

Lemma dget_fold_dset k keys : forall d : keymap,
  dget optstr_eqb (fold_left (fun d (kv : option pystr * option pystr) => dset optstr_eqb d (fst kv) (snd kv)) keys d) k =
  match last_such (fun kv : option pystr * option pystr => optstr_eqb k (fst kv)) keys with
  | Some kv => Some (snd kv)
  | None => dget optstr_eqb d k
  end.
Proof.
  induction keys as [|[k0 v0] keys IH]; intros d; cbn [fold_left last_such fst snd]; auto.
  rewrite IH. destruct (last_such _ keys); auto.
  destruct (optstr_eqb_spec k k0) as [->|n].
  - apply (dget_dset_same _ optstr_eqb_spec).
  - apply (dget_dset_other _ optstr_eqb_spec); auto.
Qed.

Section Maps.
  Variable ud ws : N -> bool.
  Variable lower : pystr -> pystr.
  Let run es kb := fold_left (fun acc e => do k <- acc; load_elem ud ws lower e k) es (Ok kb).

  Definition elem_mods (e : kelem) : option pystr :=
    match e with
    | KeyMap (Some s) _ => Some (join [32%N] (isort strleb (all_mods ws lower s)))
    | KeyMap None _ => Some []
    | _ => None
    end.
  Definition has_mods (m : pystr) (e : kelem) : bool :=
    match elem_mods e with Some x => streq x m | None => false end.

  Definition maps_of (done : list kelem) (kb : keyboard) : Prop :=
    forall m, match dget streq (k_mods kb) m with
              | None => last_such (has_mods m) done = None
              | Some kind => exists mm keys, last_such (has_mods m) done = Some (KeyMap mm keys) /\
                  nth_error (k_maps kb) kind =
                  Some (fold_left (fun d (kv : option pystr * option pystr) => dset optstr_eqb d (fst kv) (snd kv)) keys [])
              end.

  Lemma maps_other done e kb kb' :
    k_maps kb' = k_maps kb -> k_mods kb' = k_mods kb -> elem_mods e = None ->
    maps_of done kb -> maps_of (done ++ [e]) kb'.
  Proof.
    intros H1 H2 H3 HM m. specialize (HM m). rewrite last_such_app. unfold has_mods at 1.
    rewrite H1, H2, H3. unfold has_mods at 2. rewrite H3. auto.
  Qed.

  Lemma maps_map done mm keys kb m0 :
    elem_mods (KeyMap mm keys) = Some m0 -> maps_of done kb ->
    maps_of (done ++ [KeyMap mm keys])
      (mkKeyboard (k_maps kb ++ [fold_left (fun d (kv : option pystr * option pystr) =>
                                          dset optstr_eqb d (fst kv) (snd kv)) keys []])
                  (dset streq (k_mods kb) m0 (length (k_maps kb))) (k_trans kb) (k_settings kb)).
  Proof.
    intros H3 HM m. specialize (HM m). rewrite last_such_app. unfold has_mods at 1 3. rewrite H3.
    cbn [k_mods k_maps]. destruct (streq_spec m0 m) as [->|n].
    - rewrite (dget_dset_same _ streq_spec). exists mm, keys. split; auto.
      rewrite nth_error_app2, Nat.sub_diag by auto. reflexivity.
    - rewrite (dget_dset_other _ streq_spec) by auto.
      destruct (dget streq (k_mods kb) m); auto.
      destruct HM as (a & b & H4 & H5). exists a, b. split; auto.
      rewrite nth_error_app1; auto. apply nth_error_Some. congruence.
  Qed.

  Lemma run_maps es : forall done kb kb',
    Forall (fun x => forall es, x <> Import es) es ->
    maps_of done kb -> run es kb = Ok kb' -> maps_of (done ++ es) kb'.
  Proof.
    induction es as [|e es IH]; intros done kb kb' HF HM.
    - cbn. intros E; injection E as <-. rewrite app_nil_r. auto.
    - inversion_clear HF. unfold run. rewrite run_cons.
      destruct (load_elem ud ws lower e kb) as [k|] eqn:E; [|discriminate].
      intros Hr. replace (done ++ e :: es) with ((done ++ [e]) ++ es) by (rewrite <- app_assoc; auto).
      eapply IH; eauto. clear Hr IH H0.
      destruct e as [m ks|t f|f|f|a|es'|]; cbn [load_elem] in E.
      + destruct m as [s|]; cbn [bind] in E.
        * unfold parse_modifiers in E. destruct (existsb optional_mod (all_mods ws lower s)); cbn [bind] in E; [discriminate|].
          injection E as <-. apply maps_map; auto.
        * injection E as <-. apply maps_map; auto.
      + unfold add_rules in E. destruct (fold_left _ f _); cbn [bind] in E; [|discriminate].
        injection E as <-. eapply maps_other; eauto.
      + unfold add_rules in E. destruct (fold_left _ f _); cbn [bind] in E; [|discriminate].
        injection E as <-. eapply maps_other; eauto.
      + unfold add_rules in E. destruct (fold_left _ f _); cbn [bind] in E; [|discriminate].
        injection E as <-. eapply maps_other; eauto.
      + injection E as <-. eapply maps_other; eauto.
      + destruct (H es' eq_refl).
      + injection E as <-. eapply maps_other; eauto.
  Qed.
End Maps.

Lemma last_such_ext {A} (p q : A -> bool) l : (forall x, p x = q x) -> last_such p l = last_such q l.
Proof. intros H. induction l as [|x l IH]; cbn; auto. rewrite IH, H. auto. Qed.

(** C42: the text of a key is that of its last entry in the last key map with the same
    modifiers. *)
Theorem C42_key : forall ud ws lower es kb k mods,
  load ud ws lower es = Ok kb -> map_key kb k mods = key_text ws lower es (k, mods).
Proof.
  intros ud ws lower es kb k mods E. rewrite load_flat in E.
  pose proof (run_maps ud ws lower (flat_map inlined es) [] empty_keyboard kb) as HM.
  assert (HF : Forall (fun x => forall es, x <> Import es) (flat_map inlined es)).
  { apply Forall_forall. intros x Hx. apply in_flat_map in Hx as (e & _ & Hx).
    pose proof (inlined_flat e) as HF. rewrite Forall_forall in HF. auto. }
  specialize (HM HF (fun m => eq_refl) E). cbn [app] in HM.
  specialize (HM (join [32%N] (isort strleb mods))).
  unfold map_key, key_text. cbn [fst snd].
  rewrite (last_such_ext (map_for ws lower mods) (has_mods ws lower (join [32%N] (isort strleb mods)))).
  2: { intros [[s|] ks|t f|f|f|a|es'|]; reflexivity. }
  destruct (dget streq (k_mods kb) _) as [kind|].
  - destruct HM as (mm & keys & -> & ->). rewrite dget_fold_dset. cbn [dget].
    destruct (last_such _ keys) as [[a [b|]]|]; reflexivity.
  - rewrite HM. reflexivity.
Qed.

(** C54: a key map with an optional modifier is refused. *)
Theorem C54_optional : forall ud ws lower es s keys,
  In (KeyMap (Some s) keys) (flat_map inlined es) ->
  existsb optional_mod (all_mods ws lower s) = true ->
  exists e, load ud ws lower es = Raise e.
Proof.
  intros ud ws lower es s keys Hin Ho. rewrite load_flat. revert Hin. generalize empty_keyboard.
  induction (flat_map inlined es) as [|e l IH]; intros kb Hin; [contradiction|].
  destruct Hin as [->|Hin].
  - rewrite run_cons. cbn [load_elem]. unfold parse_modifiers. rewrite Ho. cbn [bind]. eauto.
  - rewrite run_cons. destruct (load_elem ud ws lower e kb); eauto.
Qed.

(** ** Histories *)

(** the layer holds a beginning of the text and knows how much *)
Definition holds (T : pystr) (l : layer) : Prop :=
  l_off l <= length T /\ l_stable l = firstn (l_off l) T.

Lemma lget_lset c i l : lget (lset c i l) i = l.
Proof. destruct i; reflexivity. Qed.
Lemma lget_lset_other c i j l : i <> j -> lget (lset c i l) j = lget c j.
Proof. destruct i, j; try reflexivity; congruence. Qed.
Lemma lset_error c i l : c_error (lset c i l) = c_error c.
Proof. destruct i; reflexivity. Qed.

Lemma results_other c i n x j : i <> j -> lget (results c i n x) j = lget c j.
Proof. intros H. unfold results. destruct (Z.ltb _ _); apply lget_lset_other; auto. Qed.
Lemma reset_other c i j : i <> j -> lget (reset_output c i) j = lget c j.
Proof. intros H. unfold reset_output. apply lget_lset_other; auto. Qed.
Lemma results_error c i n x : c_error (results c i n x) = c_error c.
Proof. unfold results. destruct (Z.ltb _ _); apply lset_error. Qed.

Lemma before_neq i : i <> SBase -> i <> before i.
Proof. destruct i; cbn; congruence. Qed.

(** what is left of the layer before, as [results] computes it *)
Definition prev_left (c : context) (i : slot) : Z :=
  match i with
  | SReorder | SFinal =>
      (Z.of_nat (length (input c (before i))) - Z.of_nat (l_off (lget c (before i))))%Z
  | _ => 0%Z
  end.
Lemma prev_left_same c c' i :
  (forall j, j <> i -> lget c' j = lget c j) -> prev_left c' i = prev_left c i.
Proof.
  intros H. destruct i; cbn [prev_left]; auto; unfold input; cbn [before];
    rewrite !H by discriminate; reflexivity.
Qed.

Lemma results_get c i n x : i <> SBase ->
  lget (results c i n x) i =
  (let l := lget c i in
   if Z.ltb (prev_left c i) (Z.of_nat (length (input c i)) - Z.of_nat (l_off l) - Z.of_nat n)
   then mkLayer (l_stable l ++ x) (l_out l ++ x) (l_off l + n)
   else mkLayer (l_stable l) (l_out l ++ x) (l_off l)).
Proof.
  intros Hi. unfold results, prev_left.
  destruct i; cbn zeta iota; try congruence; destruct (Z.ltb _ _); apply lget_lset.
Qed.

Lemma new_rule_match s p f : s <> [] -> rules_match new_rule s p f = Ok (None, 0).
Proof. destruct s as [|c s]; [congruence|]. intros _. destruct f; reflexivity. Qed.

(** copying the characters one by one *)
Lemma copy_loop t i T p f : i <> SBase ->
  (forall s, s <> [] -> rules_match t s p f = Ok (None, 0)) ->
  forall rest done fuel c, T = done ++ rest -> length rest <= fuel ->
  input c i = T -> holds T (lget c i) -> l_out (lget c i) = done ->
  (l_off (lget c i) = length done \/
   (l_off (lget c i) <= length done /\
    (Z.of_nat (length T) - Z.of_nat (l_off (lget c i)) - 1 <= prev_left c i)%Z)) ->
  exists c', simple_loop fuel t p f false i rest c = Ok (true, c') /\
    (forall j, j <> i -> lget c' j = lget c j) /\ holds T (lget c' i) /\ l_out (lget c' i) = T /\
    c_error c' = c_error c.
Proof.
  intros Hi Ht. induction rest as [|x rest IH]; intros done fuel c HT Hf Hin Hh Ho Hoff.
  - rewrite app_nil_r in HT. subst done. exists c. destruct fuel; repeat split; auto; apply Hh.
  - destruct fuel as [|fuel]; cbn in Hf; [lia|]. cbn [simple_loop]. rewrite Ht by discriminate.
    cbn [bind Nat.eqb negb andb].
    set (c1 := results c i 1 [x]).
    assert (Hoth : forall j, j <> i -> lget c1 j = lget c j) by (intros; apply results_other; auto).
    assert (HL : length T = length done + S (length rest)) by (rewrite HT, app_length; auto).
    assert (Hg := results_get c i 1 [x] Hi). cbn zeta in Hg. rewrite Hin in Hg. fold c1 in Hg.
    assert (Hin1 : input c1 i = T).
    { unfold input in *. rewrite Hoth; auto. apply not_eq_sym, before_neq; auto. }
    destruct (IH (done ++ [x]) fuel c1) as (c' & H1 & H2 & H3 & H4 & H5).
    + rewrite HT, <- app_assoc. reflexivity.
    + lia.
    + auto.
    + rewrite Hg. destruct Hh as [Ha Hb].
      destruct (Z.ltb_spec (prev_left c i) (Z.of_nat (length T) - Z.of_nat (l_off (lget c i)) - Z.of_nat 1)).
      * destruct Hoff as [Hoff|[Hoff1 Hoff2]]; [|lia].
        split; cbn; [lia|]. rewrite Hb, Hoff, HT.
        rewrite firstn_app, firstn_all, Nat.sub_diag. cbn [firstn]. rewrite app_nil_r.
        rewrite firstn_app, firstn_all2 by lia.
        replace (length done + 1 - length done) with 1 by lia. reflexivity.
      * split; auto.
    + rewrite Hg. destruct (Z.ltb _ _); cbn; rewrite Ho; reflexivity.
    + rewrite Hg. rewrite app_length. cbn [length].
      rewrite (prev_left_same c c1 i Hoth).
      destruct (Z.ltb_spec (prev_left c i) (Z.of_nat (length T) - Z.of_nat (l_off (lget c i)) - Z.of_nat 1)); cbn [l_off].
      * destruct Hoff as [Hoff|[Hoff1 Hoff2]]; lia.
      * right. lia.
    + exists c'. repeat split; auto; try apply H3.
      * intros j Hj. rewrite H2, Hoth; auto.
      * rewrite H5. apply results_error.
Qed.

Lemma process_simple_copies i T p f c : i <> SBase ->
  input c i = T -> holds T (lget c i) ->
  exists c', process_simple new_rule p f false i c = Ok (true, c') /\
    (forall j, j <> i -> lget c' j = lget c j) /\ holds T (lget c' i) /\ l_out (lget c' i) = T /\
    c_error c' = c_error c.
Proof.
  intros Hi Hin Hh. unfold process_simple.
  set (c1 := reset_output c i).
  assert (Hoth : forall j, j <> i -> lget c1 j = lget c j) by (intros; apply reset_other; auto).
  assert (Hin1 : input c1 i = T).
  { unfold input in *. rewrite Hoth; auto. apply not_eq_sym, before_neq; auto. }
  assert (Hg : lget c1 i = mkLayer (l_stable (lget c i)) (l_stable (lget c i)) (l_off (lget c i)))
    by (apply lget_lset).
  rewrite Hin1, Hg. cbn [l_off].
  destruct Hh as [Ha Hb].
  destruct (copy_loop new_rule i T p f Hi (fun s => new_rule_match s p f)
              (skipn (l_off (lget c i)) T) (firstn (l_off (lget c i)) T)
              (length (skipn (l_off (lget c i)) T)) c1) as (c' & H1 & H2 & H3 & H4 & H5); auto.
  - symmetry. apply firstn_skipn.
  - rewrite Hg. split; auto.
  - rewrite Hg. cbn. auto.
  - left. rewrite Hg. cbn. rewrite firstn_length. lia.
  - exists c'. repeat split; auto; try apply H3.
    + intros j Hj. rewrite H2, Hoth; auto.
    + rewrite H5. unfold c1, reset_output. apply lset_error.
Qed.

Lemma process_empty_copies i T c : i <> SBase ->
  input c i = T -> holds T (lget c i) -> (0 <= prev_left c i)%Z ->
  let c' := process_empty c i in
    (forall j, j <> i -> lget c' j = lget c j) /\ holds T (lget c' i) /\ l_out (lget c' i) = T /\
    c_error c' = c_error c.
Proof.
  intros Hi Hin Hh Hp. unfold process_empty.
  set (c1 := reset_output c i).
  assert (Hoth : forall j, j <> i -> lget c1 j = lget c j) by (intros; apply reset_other; auto).
  assert (Hin1 : input c1 i = T).
  { unfold input in *. rewrite Hoth; auto. apply not_eq_sym, before_neq; auto. }
  assert (Hg : lget c1 i = mkLayer (l_stable (lget c i)) (l_stable (lget c i)) (l_off (lget c i)))
    by (apply lget_lset).
  cbn zeta. rewrite Hin1, Hg. cbn [l_off]. set (o := skipn (l_off (lget c i)) T).
  destruct Hh as [Ha Hb].
  assert (Hgr := results_get c1 i (length o) o Hi). cbn zeta in Hgr.
  rewrite Hin1, Hg, (prev_left_same c c1 i Hoth) in Hgr. cbn [l_off l_stable l_out] in Hgr.
  destruct (Z.ltb_spec (prev_left c i)
     (Z.of_nat (length T) - Z.of_nat (l_off (lget c i)) - Z.of_nat (length o))).
  - unfold o in *. rewrite skipn_length in *. lia.
  - rewrite Hgr. repeat split; cbn; auto.
    + intros j Hj. rewrite results_other by auto. auto.
    + rewrite Hb. unfold o. apply firstn_skipn.
    + rewrite results_error. unfold c1, reset_output. apply lset_error.
Qed.

(** reordering by an empty table *)
Definition plain_key (p : nat) : sortkey := mkKey 0 p 0 p.

Section ReorderNothing.
  Variable ws : N -> bool.
  Variable lower : pystr -> pystr.
  Variable pyint : pystr -> option Z.

  Lemma codes_nothing s : s <> [] ->
    get_charcodes ws lower pyint new_rule s = Ok [mkCode 0 false 0 false].
  Proof. intros H. unfold get_charcodes. rewrite new_rule_match by auto. reflexivity. Qed.

  Lemma reorder_char_plain instr i p r c :
    rr_init r = true ->
    reorder_char instr i p (mkCode 0 false 0 false) (r, c) =
    Ok (mkR (rr_start r) (rr_keys r ++ [plain_key p]) true 0 p, c).
  Proof. intros H. unfold reorder_char. cbn. rewrite H. reflexivity. Qed.

  Lemma reorder_loop_plain instr i c : forall n p r fuel,
    rr_init r = true -> p + n = length instr -> n <= fuel ->
    exists prim base,
      reorder_loop ws lower pyint fuel new_rule instr i p (r, c) =
      Ok (mkR (rr_start r) (rr_keys r ++ map plain_key (seq p n)) true prim base, c).
  Proof.
    induction n as [|n IH]; intros p r fuel Hr Hp Hf.
    - exists (rr_prim r), (rr_base r). cbn [seq map]. rewrite app_nil_r.
      destruct r as [a b d e g]; cbn in *; subst.
      destruct fuel; cbn [reorder_loop]; rewrite skipn_all2 by lia; reflexivity.
    - destruct fuel as [|fuel]; [lia|]. cbn [reorder_loop].
      destruct (skipn p instr) as [|x rest] eqn:E.
      { apply (f_equal (@length N)) in E. rewrite skipn_length in E. cbn in E. lia. }
      rewrite codes_nothing by discriminate. cbn [bind reorder_codes].
      rewrite reorder_char_plain by auto. cbn [bind length]. rewrite Nat.add_1_r.
      destruct (IH (S p) (mkR (rr_start r) (rr_keys r ++ [plain_key p]) true 0 p) fuel)
        as (a & b & ->); auto; try lia.
      exists a, b. cbn [rr_start rr_keys seq map]. rewrite <- app_assoc. reflexivity.
  Qed.

  Lemma sort_plain s p : s <> [] -> sort_run s (map plain_key (seq p (length s))) = Ok s.
  Proof.
    intros Hs. unfold sort_run.
    assert (Hb : existsb (fun x => (Z.eqb (sk_primary x) 0 && Z.eqb (sk_tertiary x) 0)%bool)
                         (map plain_key (seq p (length s))) = true)
      by (destruct s; [congruence|reflexivity]).
    rewrite Hb. clear Hb Hs. f_equal. rename s into l.
    assert (H : StronglySorted (fun a b : N * sortkey => key_leb (snd a) (snd b) = true)
                  (combine l (map plain_key (seq p (length l))))).
    { revert p. induction l as [|y l IH]; intros p; cbn [length seq map combine]; constructor; auto.
      apply Forall_forall. intros [z k] Hk. apply in_combine_r in Hk.
      apply in_map_iff in Hk as (q & <- & Hq). apply in_seq in Hq.
      unfold key_leb, key_cmp. cbn [snd plain_key sk_primary sk_index sk_tertiary sk_tie Z.compare].
      assert (p < q) by lia. apply Nat.compare_lt_iff in H. rewrite H. reflexivity. }
    rewrite (isort_id (fun a b : N * sortkey => key_leb (snd a) (snd b)) _ H).
    clear H. revert p. induction l as [|y l IH]; intros p; cbn [length seq map combine fst]; auto.
    f_equal. apply IH.
  Qed.

  Lemma process_reorder_copies i T c : i <> SBase ->
    input c i = T -> holds T (lget c i) ->
    exists c', process_reorder ws lower pyint new_rule i c = Ok c' /\
      (forall j, j <> i -> lget c' j = lget c j) /\ holds T (lget c' i) /\ l_out (lget c' i) = T /\
      c_error c' = c_error c.
  Proof.
    intros Hi Hin Hh. unfold process_reorder. rewrite Hin.
    set (c1 := reset_output c i).
    assert (Hoth : forall j, j <> i -> lget c1 j = lget c j) by (intros; apply reset_other; auto).
    assert (Hg : lget c1 i = mkLayer (l_stable (lget c i)) (l_stable (lget c i)) (l_off (lget c i)))
      by (apply lget_lset).
    assert (He : c_error c1 = c_error c) by apply lset_error.
    rewrite Hg. cbn [l_off]. destruct Hh as [Ha Hb]. set (o := l_off (lget c i)) in *.
    assert (Hsc : scan_start ws lower pyint (length T) new_rule (skipn o T) = Ok 0).
    { destruct (skipn o T) as [|x r] eqn:E; [destruct (length T); reflexivity|].
      destruct (length T) as [|n] eqn:El; [destruct T; [rewrite skipn_nil in E; discriminate|discriminate]|].
      cbn [scan_start]. rewrite codes_nothing by discriminate. reflexivity. }
    rewrite Hsc. cbn [bind Nat.eqb]. rewrite Nat.add_0_r.
    destruct (reorder_loop_plain T i c1 (length T - o) o (mkR o [] true 0 o) (length T))
      as (a & b & ->); auto; try lia.
    cbn [bind rr_start rr_keys app].
    destruct (Nat.ltb_spec o (length T)) as [Hlt|Hge].
    - assert (Hsl : slice T o (length T) = skipn o T).
      { unfold slice. apply firstn_all2. rewrite skipn_length. lia. }
      rewrite Hsl. replace (length T - o) with (length (skipn o T)) by apply skipn_length.
      rewrite sort_plain.
      2: { intros E. apply (f_equal (@length N)) in E. rewrite skipn_length in E. cbn in E. lia. }
      cbn [bind]. eexists. split; [reflexivity|]. split; [|split; [|split]].
      + intros j Hj. rewrite lget_lset_other by auto. auto.
      + rewrite lget_lset, Hg. split; cbn; auto.
      + rewrite lget_lset, Hg. cbn. rewrite Hb. apply firstn_skipn.
      + rewrite lset_error. auto.
    - exists c1. split; auto. split; [auto|split; [|split; auto]].
      + rewrite Hg. split; auto.
      + rewrite Hg. cbn. rewrite Hb. apply firstn_all2. auto.
  Qed.
End ReorderNothing.

(** the settings of a keyboard: a later value replaces an earlier one *)
Definition settings_in (e : kelem) : list (pystr * pystr) :=
  match e with Settings a => a | _ => [] end.
Definition setting_of (es : list kelem) (name : pystr) : option pystr :=
  option_map snd (last_such (fun kv : pystr * pystr => streq name (fst kv))
                            (flat_map settings_in (flat_map inlined es))).
(** whether a keyboard has a table of this name *)
Definition has_table (es : list kelem) (name : pystr) : Prop :=
  exists e, In e (flat_map inlined es) /\ is_table name e.

Lemma dget_fold_dset_s k l : forall d : list (pystr * pystr),
  dget streq (fold_left (fun d (kv : pystr * pystr) => dset streq d (fst kv) (snd kv)) l d) k =
  match last_such (fun kv : pystr * pystr => streq k (fst kv)) l with
  | Some kv => Some (snd kv)
  | None => dget streq d k
  end.
Proof.
  induction l as [|[k0 v0] l IH]; intros d; cbn [fold_left last_such fst snd]; auto.
  rewrite IH. destruct (last_such _ l); auto.
  destruct (streq_spec k k0) as [->|n].
  - apply (dget_dset_same _ streq_spec).
  - apply (dget_dset_other _ streq_spec); auto.
Qed.

Lemma load_settings ud ws lower es kb : load ud ws lower es = Ok kb ->
  k_settings kb = fold_left (fun d (kv : pystr * pystr) => dset streq d (fst kv) (snd kv))
                            (flat_map settings_in (flat_map inlined es)) [].
Proof.
  rewrite load_flat.
  assert (HF : Forall (fun x => forall es, x <> Import es) (flat_map inlined es)).
  { apply Forall_forall. intros x Hx. apply in_flat_map in Hx as (e & _ & Hx).
    pose proof (inlined_flat e) as HF. rewrite Forall_forall in HF. auto. }
  change (@nil (pystr * pystr)) with (k_settings empty_keyboard).
  revert HF. generalize empty_keyboard.
  induction (flat_map inlined es) as [|e l IH]; intros k0 HF.
  - cbn. intros E; injection E as <-. reflexivity.
  - inversion_clear HF. rewrite run_cons.
    destruct (load_elem ud ws lower e k0) as [k|] eqn:E; [|discriminate].
    intros Hr. rewrite (IH k) by auto. cbn [flat_map]. rewrite fold_left_app. f_equal.
    destruct e as [[m|] ks|t f|f|f|a|es'|]; cbn [load_elem settings_in fold_left] in *.
    + destruct (parse_modifiers ws lower m); cbn [bind] in E; [|discriminate]. injection E as <-. auto.
    + cbn [bind] in E. injection E as <-. auto.
    + unfold add_rules in E. destruct (fold_left _ f _); cbn [bind] in E; [|discriminate].
      injection E as <-. auto.
    + unfold add_rules in E. destruct (fold_left _ f _); cbn [bind] in E; [|discriminate].
      injection E as <-. auto.
    + unfold add_rules in E. destruct (fold_left _ f _); cbn [bind] in E; [|discriminate].
      injection E as <-. auto.
    + injection E as <-. auto.
    + destruct (H es' eq_refl).
    + injection E as <-. auto.
Qed.

Lemma setting_is_of ud ws lower es kb name v : load ud ws lower es = Ok kb -> v <> [] ->
  setting_is kb name v = true <-> setting_of es name = Some v.
Proof.
  intros E Hv. apply load_settings in E. unfold setting_is, setting_of. rewrite E, dget_fold_dset_s.
  destruct (last_such _ _) as [[a b]|]; cbn [option_map snd dget].
  - rewrite streq_true. split; congruence.
  - rewrite streq_true. split; congruence.
Qed.

Record inv (T : pystr) (c : context) : Prop := mkInv {
  inv_base : l_out (c_base c) = T;
  inv_simple : holds T (c_simple c);
  inv_reorder : holds T (c_reorder c);
  inv_final : holds T (c_final c);
  inv_error : c_error c = false }.

Lemma holds_app T x l : holds T l -> holds (T ++ x) l.
Proof.
  intros [Ha Hb]. split.
  - rewrite app_length. lia.
  - rewrite Hb, firstn_app. replace (l_off l - length T) with 0 by lia.
    cbn. rewrite app_nil_r. reflexivity.
Qed.

Lemma inv_clone T x c : inv T c -> inv (T ++ x) (clone c x).
Proof.
  intros [H1 H2 H3 H4 H5]. constructor; cbn; auto using holds_app. rewrite H1. auto.
Qed.
Lemma inv_new x : inv x (new_context x).
Proof. constructor; cbn; auto; split; cbn; auto; lia. Qed.

Definition last_inv (T : pystr) (hist : list context) : Prop :=
  match rev hist with [] => T = [] | c :: _ => inv T c end.
Lemma last_inv_next T hist x : last_inv T hist ->
  inv (T ++ x) (match rev hist with [] => new_context x | c :: _ => clone c x end).
Proof.
  unfold last_inv. destruct (rev hist) as [|c r].
  - intros ->. apply inv_new.
  - apply inv_clone.
Qed.

Section History.
  Variable ws : N -> bool.
  Variable lower : pystr -> pystr.
  Variable pyint : pystr -> option Z.
  Variable kb : keyboard.
  Hypothesis Hbare : forall name, table kb name = None \/ table kb name = Some new_rule.

  Lemma simple_copies T c : inv T c ->
    (table kb (lit "simple") = None \/ setting_is kb (lit "fallback") (lit "omit") = false) ->
    exists c', simple_layer kb c = Ok (true, c') /\ inv T c' /\ l_out (c_simple c') = T.
  Proof.
    intros [H1 H2 H3 H4 H5] Hs. unfold simple_layer.
    assert (HC : forall c', (forall j, j <> SSimple -> lget c' j = lget c j) /\
       holds T (lget c' SSimple) /\ l_out (lget c' SSimple) = T /\ c_error c' = c_error c ->
       inv T c' /\ l_out (c_simple c') = T).
    { intros c' (K1 & K2 & K3 & K4).
      pose proof (K1 SBase) as L1. pose proof (K1 SReorder) as L3. pose proof (K1 SFinal) as L4. cbn in *.
      rewrite <- L1 in H1 by discriminate. rewrite <- L3 in H3 by discriminate. rewrite <- L4 in H4 by discriminate.
      split; [constructor|]; auto. congruence. }
    destruct (Hbare (lit "simple")) as [E|E].
    - rewrite E. eexists. split; [reflexivity|]. apply HC.
      apply (process_empty_copies SSimple T c); auto; try discriminate.
    - destruct Hs as [Hs|Hs]; [congruence|]. rewrite E, Hs.
      destruct (process_simple_copies SSimple T
                  (setting_is kb (lit "transformPartial") (lit "hide"))
                  (setting_is kb (lit "transformFailure") (lit "omit")) c) as (c' & K0 & K);
        [discriminate|exact H1|exact H2|]. eauto.
  Qed.

  Lemma reorder_copies T c : inv T c -> l_out (c_simple c) = T ->
    exists c', reorder_layer ws lower pyint kb c = Ok c' /\ inv T c' /\ l_out (c_reorder c') = T /\
               l_out (c_simple c') = T.
  Proof.
    intros [H1 H2 H3 H4 H5] Ho. unfold reorder_layer.
    assert (HC : forall c', (forall j, j <> SReorder -> lget c' j = lget c j) /\
       holds T (lget c' SReorder) /\ l_out (lget c' SReorder) = T /\ c_error c' = c_error c ->
       inv T c' /\ l_out (c_reorder c') = T /\ l_out (c_simple c') = T).
    { intros c' (K1 & K2 & K3 & K4).
      pose proof (K1 SBase) as L1. pose proof (K1 SSimple) as L3. pose proof (K1 SFinal) as L4. cbn in *.
      rewrite <- L1 in H1 by discriminate. rewrite <- L3 in H2, Ho by discriminate.
      rewrite <- L4 in H4 by discriminate.
      split; [constructor|]; auto. congruence. }
    destruct (Hbare (lit "reorder")) as [E|E]; rewrite E.
    - eexists. split; [reflexivity|]. apply HC.
      apply (process_empty_copies SReorder T c); auto; try discriminate.
      unfold prev_left, input. cbn. rewrite H1. destruct H2 as [H2 _]. lia.
    - destruct (process_reorder_copies ws lower pyint SReorder T c) as (c' & K0 & K);
        [discriminate|exact Ho|exact H3|]. eauto.
  Qed.

  Lemma final_copies T c : inv T c -> l_out (c_reorder c) = T -> l_out (c_simple c) = T ->
    exists c', final_layer kb c = Ok (true, c') /\ inv T c' /\ l_out (c_final c') = T.
  Proof.
    intros [H1 H2 H3 H4 H5] Ho Ho2. unfold final_layer.
    assert (HC : forall c', (forall j, j <> SFinal -> lget c' j = lget c j) /\
       holds T (lget c' SFinal) /\ l_out (lget c' SFinal) = T /\ c_error c' = c_error c ->
       inv T c' /\ l_out (c_final c') = T).
    { intros c' (K1 & K2 & K3 & K4).
      pose proof (K1 SBase) as L1. pose proof (K1 SSimple) as L3. pose proof (K1 SReorder) as L4. cbn in *.
      rewrite <- L1 in H1 by discriminate. rewrite <- L3 in H2 by discriminate.
      rewrite <- L4 in H3 by discriminate.
      split; [constructor|]; auto. congruence. }
    destruct (Hbare (lit "final")) as [E|E]; rewrite E.
    - eexists. split; [reflexivity|]. apply HC.
      apply (process_empty_copies SFinal T c); auto; try discriminate.
      unfold prev_left, input. cbn. rewrite Ho2. destruct H3 as [H3 _]. lia.
    - destruct (process_simple_copies SFinal T false false c) as (c' & K0 & K);
        [discriminate|exact Ho|exact H4|]. eauto.
  Qed.

  Lemma rev_tl_rev {A} (l : list A) : rev (skipn 1 (rev l)) = removelast l.
  Proof.
    induction l as [|x l IH] using rev_ind; auto.
    rewrite rev_app_distr. cbn [rev app skipn]. rewrite rev_involutive, removelast_last. auto.
  Qed.

  (** one keystroke *)
  Lemma process_step T V hist k mods x :
    last_inv T hist ->
    (match rev hist with [] => V = [] | c :: _ => l_out (c_final c) = V end) ->
    map_key kb k mods = Ok x ->
    (k = bksp -> table kb (lit "backspace") <> None) ->
    (table kb (lit "simple") = None \/ setting_is kb (lit "fallback") (lit "omit") = false) ->
    exists c, process ws lower pyint kb hist k mods = Ok (c, hist ++ [c]) /\
      inv (T ++ x) c /\ l_out (c_final c) = (if streq k bksp then removelast V else T ++ x).
  Proof.
    intros HI HV Hx Hb Hs. unfold process. rewrite Hx. cbn [bind].
    pose proof (last_inv_next T hist x HI) as HN.
    assert (HVf : l_out (c_final (match rev hist with [] => new_context x | c :: _ => clone c x end)) = V)
      by (destruct (rev hist); cbn; auto).
    set (c0 := match rev hist with [] => new_context x | c :: _ => clone c x end) in *. clearbody c0.
    destruct (streq_spec k bksp) as [Ek|Ek].
    - unfold process_backspace. destruct (Hbare (lit "backspace")) as [E|E]; [destruct (Hb Ek E)|].
      rewrite E, HVf.
      assert (Hm : rules_match new_rule (rev V) false false = Ok (None, 0))
        by (destruct (rev V); reflexivity).
      rewrite Hm. cbn [bind]. eexists. split; [reflexivity|]. rewrite rev_tl_rev.
      destruct HN as [H1 H2 H3 H4 H5]. split; [|reflexivity]. constructor; auto.
    - destruct (simple_copies _ _ HN Hs) as (c1 & -> & K1 & K2). cbn [bind].
      destruct (reorder_copies _ _ K1 K2) as (c2 & -> & K3 & K4 & K5). cbn [bind].
      destruct (final_copies _ _ K3 K4 K5) as (c3 & -> & K6 & K7). cbn [bind].
      exists c3. auto.
  Qed.

  Lemma process_all : forall keys txts T V hist,
    last_inv T hist ->
    (match rev hist with [] => V = [] | c :: _ => l_out (c_final c) = V end) ->
    mapM (fun km : pystr * list pystr => map_key kb (fst km) (snd km)) keys = Ok txts ->
    (forall m, In (bksp, m) keys -> table kb (lit "backspace") <> None) ->
    (table kb (lit "simple") = None \/ setting_is kb (lit "fallback") (lit "omit") = false) ->
    exists cs, process_keys ws lower pyint kb hist keys = Ok cs /\
      map shown cs = seen T V (combine keys txts).
  Proof.
    induction keys as [|[k m] keys IH]; intros txts T V hist HI HV Hm Hb Hs.
    - injection Hm as <-. exists []. auto.
    - cbn [mapM fst snd] in Hm. destruct (map_key kb k m) as [x|] eqn:Hx; cbn [bind] in Hm; [|discriminate].
      destruct (mapM _ keys) as [xs|] eqn:Hxs; cbn [bind] in Hm; [|discriminate]. injection Hm as <-.
      destruct (process_step T V hist k m x) as (c & E & K1 & K2); auto.
      { intros ->. apply (Hb m). left; auto. }
      destruct (IH xs (T ++ x) (if streq k bksp then removelast V else T ++ x) (hist ++ [c]))
        as (cs & E2 & K3); auto.
      { unfold last_inv. rewrite rev_app_distr. cbn. auto. }
      { rewrite rev_app_distr. cbn. auto. }
      { intros m' Hin. apply (Hb m'). right; auto. }
      exists (c :: cs). cbn [process_keys]. rewrite E. cbn [bind]. rewrite E2. cbn [bind].
      split; auto. cbn [map combine seen]. rewrite K3. f_equal.
      unfold shown. rewrite (inv_error _ _ K1). auto.
  Qed.
End History.

Lemma mapM_ext {A B} (f g : A -> res B) l : (forall x, f x = g x) -> mapM f l = mapM g l.
Proof. intros H. induction l as [|x l IH]; cbn; auto. rewrite H, IH. auto. Qed.

(** C42: for every keyboard that loads and every history of keystrokes, each with a text,
    what is seen after each keystroke is the concatenation of the texts of all keys so far;
    only the backspace key, on a keyboard with a table of backspaces, instead takes the last
    character off what was seen, and the next key brings it back. *)
Theorem C42_text : forall ud ws lower pyint es kb keys txts,
  load ud ws lower es = Ok kb ->
  mapM (key_text ws lower es) keys = Ok txts ->
  (forall m, In (bksp, m) keys -> has_table es (lit "backspace")) ->
  (~ has_table es (lit "simple") \/ setting_of es (lit "fallback") <> Some (lit "omit")) ->
  exists cs, process_keys ws lower pyint kb [] keys = Ok cs /\
    map shown cs = seen [] [] (combine keys txts).
Proof.
  intros ud ws lower pyint es kb keys txts El Hm Hb Hs.
  destruct (C54_load _ _ _ _ _ El) as (_ & H1 & H2).
  apply process_all; auto; [reflexivity|reflexivity| | |].
  - rewrite <- Hm. apply mapM_ext. intros [k m]. cbn [fst snd]. eapply C42_key; eauto.
  - intros m Hin. apply H2. apply (Hb m Hin).
  - destruct Hs as [Hs|Hs].
    + left. destruct (H1 (lit "simple")) as [E|E]; auto. destruct Hs. apply H2. rewrite E. discriminate.
    + right. destruct (setting_is kb (lit "fallback") (lit "omit")) eqn:E; auto.
      apply (setting_is_of _ _ _ _ _ _ _ El) in E; [congruence|discriminate].
Qed.

(** Without the backspace key: after the n-th keystroke the first n texts are seen. *)
Theorem C42_concatenation : forall ud ws lower pyint es kb keys txts,
  load ud ws lower es = Ok kb ->
  mapM (key_text ws lower es) keys = Ok txts ->
  (forall m, ~ In (bksp, m) keys) ->
  (~ has_table es (lit "simple") \/ setting_of es (lit "fallback") <> Some (lit "omit")) ->
  exists cs, process_keys ws lower pyint kb [] keys = Ok cs /\
    length cs = length keys /\
    forall n c, nth_error cs n = Some c -> shown c = concat (firstn (S n) txts).
Proof.
  intros ud ws lower pyint es kb keys txts El Hm Hb Hs.
  destruct (C42_text ud ws lower pyint es kb keys txts) as (cs & E & K); auto.
  { intros m Hin. destruct (Hb m Hin). }
  exists cs. split; auto.
  assert (Hl : length txts = length keys).
  { clear -Hm. revert txts Hm. induction keys as [|k keys IH]; intros txts; cbn [mapM].
    - intros E; injection E as <-. auto.
    - destruct (key_text ws lower es k); cbn [bind]; [|discriminate].
      destruct (mapM _ keys) eqn:E2; cbn [bind]; [|discriminate].
      intros E; injection E as <-. cbn. f_equal. auto. }
  assert (Hseen : forall T V, length (seen T V (combine keys txts)) = length keys /\
     forall n s, nth_error (seen T V (combine keys txts)) n = Some s -> s = T ++ concat (firstn (S n) txts)).
  { clear -Hb Hl. revert txts Hl. induction keys as [|[k m] keys IH]; intros [|x txts] Hl T V; try discriminate.
    - split; auto. intros [|n] s; discriminate.
    - assert (Hk : streq k bksp = false).
      { destruct (streq_spec k bksp) as [->|]; auto. destruct (Hb m). left; auto. }
      cbn [combine seen]. rewrite Hk. cbn zeta.
      destruct (IH (fun m' Hin => Hb m' (or_intror Hin)) txts ltac:(cbn in Hl; lia) (T ++ x) (T ++ x)) as [H1 H2].
      split; [cbn [length]; f_equal; auto|].
      intros [|n] s; cbn [nth_error].
      + intros E; injection E as <-. cbn. rewrite app_nil_r. auto.
      + intros E. apply H2 in E. rewrite E. cbn [firstn concat]. rewrite app_assoc. reflexivity. }
  destruct (Hseen [] []) as [H1 H2]. rewrite <- K in H1, H2. rewrite map_length in H1.
  split; auto. intros n c Hn. apply H2. rewrite nth_error_map, Hn. reflexivity.
Qed.

(** C54: without a table of backspaces the backspace key raises. *)
Theorem C54_backspace : forall ud ws lower pyint es kb hist mods x,
  load ud ws lower es = Ok kb -> ~ has_table es (lit "backspace") ->
  key_text ws lower es (bksp, mods) = Ok x ->
  process ws lower pyint kb hist bksp mods = Raise AttributeError.
Proof.
  intros ud ws lower pyint es kb hist mods x El Hb Hx.
  destruct (C54_load _ _ _ _ _ El) as (_ & H1 & H2).
  unfold process. rewrite (C42_key _ _ _ _ _ _ _ El), Hx. cbn [bind].
  rewrite streq_refl. unfold process_backspace.
  destruct (H1 (lit "backspace")) as [->|E]; auto.
  destruct Hb. apply H2. rewrite E. discriminate.
Qed.

(** A keyboard with two key maps, an import, an (empty) table of each kind. *)
Definition ascii_lower (s : pystr) : pystr :=
  map (fun c => if (N.leb 65 c && N.leb c 90)%bool then (c + 32)%N else c) s.
Definition ex_board : list kelem :=
  [KeyMap None [(Some (lit "C01"), Some (lit "a")); (Some (lit "C02"), Some (lit "\u0062c"))];
   Import [KeyMap (Some (lit "Shift+Ctrl")) [(Some (lit "C01"), Some (lit "A"))]; Backspaces []];
   Transforms (Some (lit "simple")) []; Reorders [Some (lit " ")]; Settings [(lit "fallback", lit "base")]].
Definition ex_keys : list (pystr * list pystr) :=
  [(lit "C01", []); (lit "C02", []); (lit "Q", []); (lit "BKSP", []); (lit "C01", [lit "shift"; lit "ctrl"])].
Example ex_board_run :
  exists kb cs, load (fun _ => false) (fun c => N.eqb c 32) ascii_lower ex_board = Ok kb /\
    process_keys (fun c => N.eqb c 32) ascii_lower (fun _ => None) kb [] ex_keys = Ok cs /\
    map shown cs = [lit "a"; lit "abc"; lit "abc"; lit "ab"; lit "abcA"].
Proof. eexists. eexists. split; [reflexivity|]. split; [vm_compute; reflexivity|reflexivity]. Qed.
Example ex_board_string :
  exists kb cs, load (fun _ => false) (fun c => N.eqb c 32) ascii_lower ex_board = Ok kb /\
    process_string (fun c => N.eqb c 32) ascii_lower (fun _ => None) kb (lit "[C01] x [ C02 ][Ctrl Shift C01]") = Ok cs /\
    map shown cs = [lit "a"; lit "abc"; lit "abcA"].
Proof. eexists. eexists. split; [reflexivity|]. split; [vm_compute; reflexivity|reflexivity]. Qed.

(** With a table of simple transforms, which is always empty, and the setting to omit what
    has no transform, nothing is ever seen. *)
Definition blank (l : layer) : Prop := l_stable l = [] /\ l_off l = 0.
Definition blank_context (c : context) : Prop :=
  blank (c_simple c) /\ blank (c_reorder c) /\ blank (c_final c) /\ l_out (c_final c) = [] /\
  c_error c = false.

Lemma process_step_omit ws lower pyint kb hist k mods c hist' :
  (forall name, table kb name = None \/ table kb name = Some new_rule) ->
  table kb (lit "simple") <> None -> setting_is kb (lit "fallback") (lit "omit") = true ->
  (match rev hist with [] => True | c :: _ => blank_context c end) ->
  process ws lower pyint kb hist k mods = Ok (c, hist') ->
  blank_context c /\ hist' = hist ++ [c].
Proof.
  intros Hb Hs Ho HI. unfold process.
  destruct (map_key kb k mods) as [x|]; cbn [bind]; [|discriminate].
  assert (HN : blank_context (match rev hist with [] => new_context x | c :: _ => clone c x end)).
  { destruct (rev hist) as [|c0 r]; [repeat split|]. destruct HI as (H1 & H2 & H3 & H4 & H5).
    repeat split; auto; cbn; try apply H1; try apply H2; try apply H3. }
  set (c0 := match rev hist with [] => new_context x | c :: _ => clone c x end) in *. clearbody c0.
  destruct (streq k bksp).
  - unfold process_backspace. destruct (Hb (lit "backspace")) as [->| ->]; [discriminate|].
    destruct HN as (H1 & H2 & H3 & H4 & H5). rewrite H4. cbn. intros E; injection E as <- <-.
    split; auto. repeat split; auto; cbn; try apply H1; try apply H2; try apply H3.
  - unfold simple_layer. destruct (Hb (lit "simple")) as [E|E]; [congruence|]. rewrite E, Ho.
    destruct c0 as [[bs bo bf] [ss so sf] [rs ro rf] [fs fo ff] er].
    destruct HN as ([H1 H1'] & [H2 H2'] & [H3 H3'] & H4 & H5). cbn in H1, H1', H2, H2', H3, H3', H4, H5. subst.
    assert (E1 : forall p f, process_simple new_rule p f true SSimple
       (mkContext (mkLayer bs bo bf) (mkLayer [] so 0) (mkLayer [] ro 0) (mkLayer [] [] 0) false) =
       Ok (true, mkContext (mkLayer bs bo bf) (mkLayer [] [] 0) (mkLayer [] ro 0) (mkLayer [] [] 0) false)).
    { intros p f. unfold process_simple. cbn [reset_output lget lset c_base c_simple c_reorder c_final c_error l_stable l_off input before l_out skipn].
      destruct bo as [|y bo]; [reflexivity|]. cbn [length simple_loop]. rewrite new_rule_match by discriminate.
      reflexivity. }
    rewrite E1. cbn [bind].
    assert (E2 : reorder_layer ws lower pyint kb
       (mkContext (mkLayer bs bo bf) (mkLayer [] [] 0) (mkLayer [] ro 0) (mkLayer [] [] 0) false) =
       Ok (mkContext (mkLayer bs bo bf) (mkLayer [] [] 0) (mkLayer [] [] 0) (mkLayer [] [] 0) false)).
    { unfold reorder_layer. destruct (Hb (lit "reorder")) as [->| ->]; [|reflexivity].
      f_equal. unfold process_empty, reset_output, results, input. cbn [lget lset before c_base c_simple c_reorder c_final c_error l_stable l_out l_off skipn length].
      destruct (Z.ltb_spec (Z.of_nat (length bo) - Z.of_nat 0) (Z.of_nat 0 - Z.of_nat 0 - Z.of_nat 0)); [lia|reflexivity]. }
    rewrite E2. cbn [bind].
    assert (E3 : final_layer kb
       (mkContext (mkLayer bs bo bf) (mkLayer [] [] 0) (mkLayer [] [] 0) (mkLayer [] [] 0) false) =
       Ok (true, mkContext (mkLayer bs bo bf) (mkLayer [] [] 0) (mkLayer [] [] 0) (mkLayer [] [] 0) false)).
    { unfold final_layer. destruct (Hb (lit "final")) as [->| ->]; reflexivity. }
    rewrite E3. cbn [bind]. intros E4; injection E4 as <- <-. repeat split.
Qed.

Theorem C42_omit : forall ud ws lower pyint es kb keys cs,
  load ud ws lower es = Ok kb ->
  has_table es (lit "simple") -> setting_of es (lit "fallback") = Some (lit "omit") ->
  process_keys ws lower pyint kb [] keys = Ok cs ->
  Forall (fun c => shown c = []) cs.
Proof.
  intros ud ws lower pyint es kb keys cs El Ht Hs.
  destruct (C54_load _ _ _ _ _ El) as (_ & H1 & H2).
  assert (Ht' : table kb (lit "simple") <> None) by (apply H2; auto).
  assert (Hs' : setting_is kb (lit "fallback") (lit "omit") = true)
    by (eapply setting_is_of; eauto; discriminate).
  assert (HI : match rev (@nil context) with [] => True | c :: _ => blank_context c end) by exact I.
  revert HI. generalize (@nil context) as hist. revert cs.
  induction keys as [|[k m] keys IH]; intros cs hist HI; cbn [process_keys].
  - intros E; injection E as <-. constructor.
  - destruct (process ws lower pyint kb hist k m) as [[c hist']|] eqn:Ep; cbn [bind]; [|discriminate].
    destruct (process_keys ws lower pyint kb hist' keys) as [cs'|] eqn:Ek; cbn [bind]; [|discriminate].
    intros E; injection E as <-.
    apply process_step_omit in Ep as [Hc ->]; auto. constructor.
    + destruct Hc as (_ & _ & _ & Hf & He). unfold shown. rewrite He. auto.
    + eapply IH; [|eauto]. rewrite rev_app_distr. cbn. auto.
Qed.

Example ex_omit :
  exists kb cs, load (fun _ => false) (fun c => N.eqb c 32) ascii_lower
    (Settings [(lit "fallback", lit "omit")] :: firstn 4 ex_board) = Ok kb /\
    process_keys (fun c => N.eqb c 32) ascii_lower (fun _ => None) kb [] ex_keys = Ok cs /\
    map shown cs = [[]; []; []; []; []].
Proof. eexists. eexists. split; [reflexivity|]. split; [vm_compute; reflexivity|reflexivity]. Qed.
