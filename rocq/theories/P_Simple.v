(** Proofs about collations from a simple list of items. *)
From Verif Require Import Py PyFacts M_UnicodeSets P_UnicodeSets M_Collation P_Collation P_Collation2 T_Collation
  M_Tailor P_Tailor T_Tailor M_Simple.
Open Scope nat_scope.

(** ** Specification of what a list of items means *)
(** levels: the first item of a line at the level of the line, what follows a slash at the third level, what follows a
    space at the second *)
Definition group_levels (l : nat) (g : list pystr) : list (pystr * nat) :=
  match g with [] => [] | x :: r => (x, l) :: map (fun y => (y, 3)) r end.
Definition line_levels (l : nat) (gs : list (list pystr)) : list (pystr * nat) :=
  match gs with [] => [] | g :: r => group_levels l g ++ flat_map (group_levels 2) r end.
(** each item relates to the one before it *)
Fixpoint linked (b : pystr) (l : list (pystr * nat)) : list (pystr * tel) :=
  match l with
  | [] => []
  | (s, lv) :: r => (s, TEl b lv 0%N [0] [] None None) :: linked s r
  end.

Lemma last_cons {A} (x : A) l d : last (x :: l) d = last l x.
Proof. revert x d. induction l as [|y l IH]; intros x d; [reflexivity|]. change (last (y :: l) d = last (y :: l) x). now rewrite !IH. Qed.
Lemma linked_app b l1 l2 : linked b (l1 ++ l2) = linked b l1 ++ linked (last (map fst l1) b) l2.
Proof.
  revert b. induction l1 as [|[s lv] l1 IH]; intros b; [reflexivity|]. cbn [app linked map fst]. rewrite IH, last_cons. reflexivity.
Qed.
Lemma linked_keys b l : map fst (linked b l) = map fst l.
Proof. revert b. induction l as [|[s lv] l IH]; intros b; cbn; [reflexivity|]. now rewrite IH. Qed.
Lemma last_app {A} (a b : list A) d : last (a ++ b) d = last b (last a d).
Proof.
  revert d. induction a as [|x a IH]; intros d; [reflexivity|]. cbn [app]. now rewrite !last_cons, IH.
Qed.

Section Items.
  Context {W : Type} (wcmp : W -> W -> comparison) (zero : W).
  Variable ws : N -> bool.
  Variable lower upper : pystr -> pystr.
  Notation ai := add_item.

  Definition fresh (elts : list (pystr * tel)) (l : list (pystr * nat)) : Prop :=
    NoDup (map fst elts ++ map fst l) /\ ~ In [] (map fst l).

  Lemma add_fresh elts b lv s : ~ In s (map fst elts) -> s <> [] ->
    ai (elts, Some b, lv) s = (elts ++ linked b [(s, lv)], Some s, 3).
  Proof.
    intros H N. unfold add_item. destruct s as [|c s]; [congruence|].
    destruct (dmem streq elts (c :: s)) eqn:D; [apply (dmem_spec _ streq_spec) in D; contradiction|].
    now rewrite dset_fresh by exact H.
  Qed.
  Lemma fresh_cons elts b s lv l : fresh elts ((s, lv) :: l) ->
    ~ In s (map fst elts) /\ s <> [] /\ fresh (elts ++ linked b [(s, lv)]) l.
  Proof.
    intros [ND NE]. cbn [map fst] in *. split; [|split].
    - intros X. apply NoDup_remove_2 in ND. apply ND. apply in_or_app. now left.
    - intros ->. apply NE. now left.
    - split; [|intros X; apply NE; now right]. rewrite map_app, linked_keys. cbn [map fst]. rewrite <- app_assoc. exact ND.
  Qed.
  Lemma add_rest : forall r elts b, fresh elts (map (fun y => (y, 3)) r) ->
    fold_left ai r (elts, Some b, 3) = (elts ++ linked b (map (fun y => (y, 3)) r), Some (last r b), 3).
  Proof.
    induction r as [|s r IH]; intros elts b F; cbn [fold_left map].
    - cbn. now rewrite app_nil_r.
    - destruct (fresh_cons elts b s 3 _ F) as (H1 & H2 & H3). rewrite add_fresh by assumption. rewrite IH by exact H3.
      rewrite <- app_assoc, last_cons. reflexivity.
  Qed.
  Lemma add_group g elts b lv : fresh elts (group_levels lv g) ->
    exists lv', fold_left ai g (elts, Some b, lv) = (elts ++ linked b (group_levels lv g), Some (last (map fst (group_levels lv g)) b), lv').
  Proof.
    destruct g as [|s r]; intros F; cbn [group_levels fold_left map fst] in *.
    - exists lv. cbn. now rewrite app_nil_r.
    - exists 3. destruct (fresh_cons elts b s lv _ F) as (H1 & H2 & H3). rewrite add_fresh by assumption. rewrite add_rest by exact H3.
      rewrite <- app_assoc. rewrite last_cons, map_map. cbn [fst]. rewrite map_id. reflexivity.
  Qed.
  Lemma fresh_app elts b l1 l2 : fresh elts (l1 ++ l2) -> fresh elts l1 /\ fresh (elts ++ linked b l1) l2.
  Proof.
    intros [ND NE]. rewrite map_app in *. split; split.
    - rewrite app_assoc in ND. clear - ND. induction (map fst elts ++ map fst l1) as [|x m IH]; [constructor|].
      cbn in ND. inversion ND as [|? ? H1 H2]; subst. constructor; [|now apply IH]. intros X. apply H1. apply in_or_app. now left.
    - intros X. apply NE. apply in_or_app. now left.
    - rewrite map_app, linked_keys, <- app_assoc. exact ND.
    - intros X. apply NE. apply in_or_app. now right.
  Qed.
  Notation asi strict := (add_space_item ws lower upper strict).
  Notation sl strict := (slash_items ws lower upper strict).
  Lemma add_groups strict : forall its elts b, fresh elts (flat_map (group_levels 2) (map (sl strict) its)) ->
    fold_left (asi strict) its (elts, Some b, 2) =
    (elts ++ linked b (flat_map (group_levels 2) (map (sl strict) its)),
     Some (last (map fst (flat_map (group_levels 2) (map (sl strict) its))) b), 2).
  Proof.
    induction its as [|it its IH]; intros elts b F; cbn [fold_left map flat_map] in *.
    - cbn. now rewrite app_nil_r.
    - destruct (fresh_app elts b _ _ F) as [F1 F2].
      unfold add_space_item at 2. destruct (add_group (sl strict it) elts b 2 F1) as (lv' & ->).
      rewrite IH by exact F2. rewrite <- app_assoc, linked_app. f_equal. f_equal. f_equal. now rewrite map_app, last_app.
  Qed.
  Lemma add_line_groups strict its elts b lv : its <> [] -> fresh elts (line_levels lv (map (sl strict) its)) ->
    fold_left (asi strict) its (elts, Some b, lv) =
    (elts ++ linked b (line_levels lv (map (sl strict) its)), Some (last (map fst (line_levels lv (map (sl strict) its))) b), 2).
  Proof.
    destruct its as [|it its]; intros N F; [congruence|]. cbn [fold_left map line_levels] in *.
    destruct (fresh_app elts b _ _ F) as [F1 F2].
    unfold add_space_item at 2. destruct (add_group (sl strict it) elts b lv F1) as (lv' & ->).
    rewrite add_groups by exact F2. rewrite <- app_assoc, linked_app. f_equal. f_equal. f_equal. now rewrite map_app, last_app.
  Qed.
  (** the very first line: its first item is where the chain starts *)
  Lemma add_first_line strict its elts lv s lv0 l : fresh elts (line_levels lv (map (sl strict) its)) ->
    line_levels lv (map (sl strict) its) = (s, lv0) :: l ->
    hd [] (map (sl strict) its) <> [] ->
    fold_left (asi strict) its (elts, None, lv) = (elts ++ linked s l, Some (last (map fst l) s), 2).
  Proof.
    destruct its as [|it its]; intros F E H; [discriminate|]. cbn [fold_left map line_levels hd] in *.
    unfold add_space_item at 2. destruct (sl strict it) as [|x r] eqn:G; [congruence|]. cbn [group_levels app] in E. injection E as <- <- <-.
    cbn [group_levels app] in F. destruct (fresh_cons elts [] x lv _ F) as (H1 & H2 & H3).
    cbn [fold_left]. assert (A : ai (elts, None, lv) x = (elts, Some x, 3)) by (destruct x; [congruence|reflexivity]). rewrite A.
    assert (FF : fresh elts (map (fun y => (y, 3)) r ++ flat_map (group_levels 2) (map (sl strict) its))).
    { destruct F as [ND NE]. cbn [map fst] in *. split; [now apply NoDup_remove_1 in ND|]. intros X. apply NE. now right. }
    destruct (fresh_app elts x _ _ FF) as [F1 F2].
    rewrite add_rest by exact F1. 
    assert (LR : last (map fst (map (fun y : pystr => (y, 3)) r)) x = last r x) by (rewrite map_map; cbn; now rewrite map_id).
    rewrite add_groups by exact F2. rewrite <- app_assoc, linked_app, LR. f_equal. f_equal. f_equal. rewrite map_app, last_app, LR. reflexivity.
  Qed.

  Lemma split_nonempty c s : split_on c s <> [].
  Proof. induction s as [|x s IH]; cbn; [discriminate|]. destruct (N.eqb x c); [discriminate|]. now destruct (split_on c s). Qed.
  Lemma space_nonempty strict v : space_items lower strict v <> [].
  Proof.
    unfold space_items. destruct (split_on 32 v) as [|a [|b [|c l]]] eqn:E; try discriminate.
    - now apply split_nonempty in E.
    - destruct (_ && _)%bool; discriminate.
  Qed.
  Lemma cased_nonempty s : cased_forms lower upper s <> [].
  Proof. clear zero wcmp.
    unfold cased_forms. intros E.
    assert (X : In (upper (firstn 0 s) ++ lower (skipn 0 s)) (isort str_geb (set_of (map (fun i => upper (firstn i s) ++ lower (skipn i s)) (seq 0 (S (length s))))))).
    { apply in_isort. unfold set_of. apply nodup_In. apply in_map_iff. exists 0. split; [reflexivity|]. apply in_seq. lia. }
    rewrite E in X. destruct X.
  Qed.
  Lemma slash_nonempty strict it : sl strict it <> [].
  Proof. clear zero wcmp.
    unfold slash_items. cbv zeta. set (l := map (strip ws) (split_on 47 it)).
    assert (Nl : l <> []) by (unfold l; pose proof (split_nonempty 47 it); destruct (split_on 47 it); [congruence|discriminate]).
    match goal with |- context [if ?b then cased_forms lower upper ?s else l] => destruct b; set (s0 := s) end;
    match goal with |- context [if ?b then _ else _] => destruct b end; try exact Nl; try apply cased_nonempty;
      intros X; apply app_eq_nil in X as [_ X]; discriminate.
  Qed.

  (** ** all lines *)
  Definition has_primary (d : list (pystr * list (W * W * W))) (s : pystr) : Prop :=
    exists v w, dkey wcmp zero d s = Ok v /\ In w (nth 0 v []) /\ w <> zero.
  Hypothesis weq : forall x y, wcmp x y = Eq <-> x = y.
  Lemma has_primary_spec d s : has_primary d s -> no_primary wcmp zero d s = Ok false.
  Proof.
    intros (v & w & E & H & N). unfold no_primary. rewrite E. cbn [bind].
    pose proof (dkey_len wcmp zero d s v E) as L. destruct v as [|l0 v]; [discriminate|]. cbn [level nth_error bind nth] in *.
    f_equal. destruct (stripzero wcmp zero l0) as [|x r] eqn:X; [|reflexivity]. exfalso.
    destruct (sz_spec wcmp zero weq l0) as [_ (m & Y)]. rewrite X in Y. cbn in Y. rewrite Y in H. apply repeat_spec in H. contradiction.
  Qed.
  Notation lines strict values := (flat_map (fun v => line_levels 1 (map (sl strict) (space_items lower strict v))) values).
  Lemma add_lines_more d strict : forall values elts b, fresh elts (lines strict values) ->
    (forall v, In v values -> has_primary d (hd [] (space_items lower strict v))) ->
    has_primary d b -> (forall x, In x (map fst (lines strict values)) -> has_primary d x) ->
    exists b', add_lines wcmp zero ws lower upper d strict (elts, Some b) values = Ok (elts ++ linked b (lines strict values), Some b').
  Proof.
    induction values as [|v values IH]; intros elts b F HV HB HX; cbn [add_lines flat_map] in *.
    - exists b. cbn. now rewrite app_nil_r.
    - unfold add_line. rewrite (has_primary_spec d _ (HV v (or_introl eq_refl))). cbn [bind].
      rewrite (has_primary_spec d b HB). cbn [bind].
      destruct (fresh_app elts b _ _ F) as [F1 F2].
      rewrite add_line_groups; [|apply space_nonempty|exact F1].
      set (b1 := last (map fst (line_levels 1 (map (sl strict) (space_items lower strict v)))) b). cbn [bind].
      destruct (IH (elts ++ linked b (line_levels 1 (map (sl strict) (space_items lower strict v)))) b1) as (b' & E).
      + exact F2.
      + intros v' H'. apply HV. now right.
      + unfold b1. destruct (map fst (line_levels 1 (map (sl strict) (space_items lower strict v)))) as [|x xs] eqn:EX; [exact HB|].
        apply HX. rewrite map_app. apply in_or_app. left. rewrite EX.
        assert (L : forall (l : list pystr) a d, In (last (a :: l) d) (a :: l)).
        { clear. induction l as [|y l IH]; intros a d; [now left|]. right. exact (IH y d). }
        apply L.
      + intros x Hx. apply HX. rewrite map_app. apply in_or_app. now right.
      + exists b'. rewrite E. rewrite <- app_assoc, linked_app. reflexivity.
  Qed.
End Items.
