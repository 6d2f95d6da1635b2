(** C53: the fonts left when font resources are filled in from another document. *)
From Coq Require Import String.
From Verif Require Import Py PyFacts M_LdmlBase M_Serialize M_Normalise M_Drafts T_Drafts T_Promote T_AddNode M_Merge T_Overlay.
Local Open Scope list_scope.
Local Open Scope nat_scope.

(** * Specification *)

(** the types a font of the other document is for: its attribute split at spaces *)
Definition types_for (f : lnode) : list pystr :=
  split_on 32%N (match lget f (lit "types") with Some s => s | None => [] end).
(** a font with the claimed types taken out of its types attribute, if it has any of them *)
Definition left_of (claimed : list pystr) (f : lnode) : lnode :=
  match lget f (lit "types") with
  | None => f
  | Some s =>
      if existsb (fun t => memstr t claimed) (split_on 32%N s)
      then set_attrs f (dset streq (lattrs f) (lit "types")
                          (join [32%N] (filter (fun t => negb (memstr t claimed)) (split_on 32%N s))))
      else f
  end.
(** a font that is for something *)
Definition for_something (f : lnode) : bool :=
  match lget f (lit "types") with Some (_ :: _) => true | _ => false end.

(** * Proof *)
Lemma for_something_has f : for_something f = has_types f.
Proof. unfold for_something, has_types. destruct (lget f (lit "types")) as [[|]|]; reflexivity. Qed.

Lemma set_attrs_twice f a b : set_attrs (set_attrs f a) b = set_attrs f b.
Proof. now destruct f. Qed.
Lemma dset_twice (d : list (pystr * pystr)) k v w : dset streq (dset streq d k v) k w = dset streq d k w.
Proof.
  induction d as [|[k' x] d IH]; cbn [dset]; [now rewrite streq_refl|].
  destruct (streq k k') eqn:E; cbn [dset]; rewrite E; [reflexivity|now rewrite IH].
Qed.
Lemma lget_set_types f s : lget (set_attrs f (dset streq (lattrs f) (lit "types") s)) (lit "types") = Some s.
Proof. destruct f. unfold lget. cbn [set_attrs lattrs]. apply (dget_dset_same _ streq_spec). Qed.

Lemma strip_type_eq t f : t <> lit "default" -> strip_type t f = left_of [t] f.
Proof.
  intro N. unfold strip_type, left_of. destruct (lget f (lit "types")) as [s|].
  - assert (memstr t (split_on 32%N s) = existsb (fun x => memstr x [t]) (split_on 32%N s)) as ->.
    { apply eq_true_iff_eq. rewrite memstr_iff, existsb_exists. split.
      - intro H. exists t. split; [assumption|]. apply memstr_iff. now left.
      - intros (x & Hx & Hm). apply memstr_iff in Hm. destruct Hm as [->|[]]. assumption. }
    destruct (existsb _ _); [|reflexivity]. do 3 f_equal. apply filter_ext. intro x.
    unfold memstr. cbn [existsb]. now rewrite Bool.orb_false_r.
  - change (split_on 32%N (lit "default")) with [lit "default"].
    unfold memstr. cbn [existsb]. rewrite Bool.orb_false_r.
    destruct (streq_spec t (lit "default")); [contradiction|reflexivity].
Qed.


Definition set_types (f : lnode) (s : pystr) : lnode := set_attrs f (dset streq (lattrs f) (lit "types") s).
Definition others (claimed : list pystr) (l : list pystr) : list pystr := filter (fun t => negb (memstr t claimed)) l.
Lemma dset_same (d : list (pystr * pystr)) k v : dget streq d k = Some v -> dset streq d k v = d.
Proof.
  induction d as [|[k' x] d IH]; cbn [dget dset]; [discriminate|].
  destruct (streq_spec k k') as [->|N]; intro H; [congruence|]. now rewrite IH.
Qed.
Lemma set_types_same f s : lget f (lit "types") = Some s -> set_types f s = f.
Proof. unfold set_types, lget. intro H. rewrite dset_same by assumption. now destruct f. Qed.
Lemma left_of_eq claimed f s : lget f (lit "types") = Some s ->
  left_of claimed f = set_types f (join [32%N] (others claimed (split_on 32%N s))).
Proof.
  intro H. unfold left_of. rewrite H. destruct (existsb _ _) eqn:E; [reflexivity|].
  assert (others claimed (split_on 32%N s) = split_on 32%N s) as ->.
  { unfold others. revert E. induction (split_on 32%N s) as [|x l IH]; [reflexivity|]. cbn [existsb filter].
    intro E. apply Bool.orb_false_iff in E as [-> E]. cbn [negb]. now rewrite IH. }
  now rewrite join_split, set_types_same.
Qed.
Lemma join_nil l : join [32%N] l = [] -> l = [] \/ l = [[]].
Proof.
  destruct l as [|[|c a] [|b l]]; cbn; auto; discriminate.
Qed.
Lemma others_app a b l : others b (others a l) = others (a ++ b) l.
Proof.
  unfold others. induction l as [|x l IH]; [reflexivity|]. cbn [filter].
  assert (memstr x (a ++ b) = (memstr x a || memstr x b)%bool) as -> by apply existsb_app.
  destruct (memstr x a); cbn [negb orb]; [apply IH|]. cbn [filter]. destruct (memstr x b); cbn [negb]; [apply IH|].
  now rewrite IH.
Qed.
Lemma left_of_app a b f :
  (for_something (left_of a f) = true -> left_of b (left_of a f) = left_of (a ++ b) f) /\
  (for_something (left_of a f) = false -> for_something (left_of (a ++ b) f) = false).
Proof.
  destruct (lget f (lit "types")) as [s|] eqn:E.
  - rewrite (left_of_eq a f s E), (left_of_eq (a ++ b) f s E).
    set (l := others a (split_on 32%N s)).
    assert (lget (set_types f (join [32%N] l)) (lit "types") = Some (join [32%N] l)) as El by apply lget_set_types.
    split.
    + unfold for_something at 1. rewrite El. intro H.
      rewrite (left_of_eq b _ _ El), split_join.
      * unfold set_types. rewrite set_attrs_twice. unfold l. rewrite others_app. f_equal.
        destruct f. cbn [set_attrs lattrs]. apply dset_twice.
      * intro Hn. rewrite Hn in H. discriminate.
      * apply Forall_forall. intros x Hx. apply filter_In in Hx as [Hx _]. now apply split_on_In in Hx.
    + unfold for_something. rewrite El. intro H.
      assert (join [32%N] l = []) as Hn by (destruct (join [32%N] l); [reflexivity|discriminate]).
      unfold set_types at 1. rewrite lget_set_types, <- others_app. fold l.
      apply join_nil in Hn as [->| ->]; [reflexivity|]. unfold others. cbn [filter].
      destruct (negb (memstr [] b)); reflexivity.
  - assert (forall c, left_of c f = f) as L by (intro; unfold left_of; now rewrite E).
    rewrite !L. auto.
Qed.
Lemma filter_left a b l :
  filter for_something (map (left_of b) (filter for_something (map (left_of a) l)))
  = filter for_something (map (left_of (a ++ b)) l).
Proof.
  induction l as [|f l IH]; [reflexivity|]. cbn [map filter]. destruct (left_of_app a b f) as [H1 H2].
  destruct (for_something (left_of a f)).
  - cbn [map filter]. rewrite IH, H1 by reflexivity. reflexivity.
  - rewrite IH, H2 by reflexivity. reflexivity.
Qed.
Lemma take_types_cons t ts fonts : t <> lit "default" ->
  take_types (t :: ts) fonts = take_types ts (filter for_something (map (left_of [t]) fonts)).
Proof.
  intro N. cbn [take_types]. destruct (streq_spec t (lit "default")); [contradiction|].
  f_equal. rewrite <- (filter_ext _ _ for_something_has). f_equal. apply map_ext. intro f. now apply strip_type_eq.
Qed.
Lemma take_types_nil ts : take_types ts [] = [].
Proof. induction ts as [|t ts IH]; [reflexivity|]. cbn [take_types map filter]. now destruct (streq _ _). Qed.
Lemma take_types_from a ts fonts :
  take_types ts (filter for_something (map (left_of a) fonts))
  = if memstr (lit "default") ts then [] else filter for_something (map (left_of (a ++ ts)) fonts).
Proof.
  revert a. induction ts as [|t ts IH]; intro a.
  - cbn. now rewrite app_nil_r.
  - unfold memstr. cbn [existsb]. fold (memstr (lit "default") ts).
    destruct (streq_spec (lit "default") t) as [<-|N]; cbn [orb].
    + cbn [take_types]. now rewrite streq_refl.
    + rewrite take_types_cons by congruence. rewrite filter_left, IH, <- app_assoc. reflexivity.
Qed.
Lemma take_types_spec ts fonts : ts <> [] ->
  take_types ts fonts = if memstr (lit "default") ts then [] else filter for_something (map (left_of ts) fonts).
Proof.
  destruct ts as [|t ts]; [congruence|]. intros _. unfold memstr. cbn [existsb]. fold (memstr (lit "default") ts).
  destruct (streq_spec (lit "default") t) as [<-|N]; cbn [orb].
  - cbn [take_types]. now rewrite streq_refl.
  - rewrite take_types_cons by congruence. apply (take_types_from [t]).
Qed.

(** all the fonts of the other document, one after another *)
Lemma take_all os fonts : os <> [] ->
  fold_left (fun fs o => take_types (types_for o) fs) os fonts
  = (if memstr (lit "default") (flat_map types_for os) then []
     else filter for_something (map (left_of (flat_map types_for os)) fonts)).
Proof.
  assert (forall os a, fold_left (fun fs o => take_types (types_for o) fs) os (filter for_something (map (left_of a) fonts))
    = (if memstr (lit "default") (flat_map types_for os) then []
       else filter for_something (map (left_of (a ++ flat_map types_for os)) fonts))) as Main.
  { clear os. induction os as [|o os IH]; intro a; cbn [fold_left flat_map].
    - cbn. now rewrite app_nil_r.
    - rewrite take_types_from. unfold memstr at 2. rewrite existsb_app. fold (memstr (lit "default") (types_for o)).
      fold (memstr (lit "default") (flat_map types_for os)).
      destruct (memstr (lit "default") (types_for o)); cbn [orb].
      + clear IH. induction os as [|o' os IH]; [reflexivity|]. cbn [fold_left]. now rewrite take_types_nil.
      + now rewrite IH, app_assoc. }
  destruct os as [|o os]; [congruence|]. intros _. cbn [fold_left flat_map].
  rewrite take_types_spec by apply split_on_nonempty. unfold memstr at 2. rewrite existsb_app.
  fold (memstr (lit "default") (types_for o)). fold (memstr (lit "default") (flat_map types_for os)).
  destruct (memstr (lit "default") (types_for o)); cbn [orb].
  - clear. induction os as [|o' os IH]; [reflexivity|]. cbn [fold_left]. now rewrite take_types_nil.
  - apply Main.
Qed.

(** ** C53: the other document's font resources [o] hold fonts only; those of this document
    at the same place, [ext], become: what was not a font, the other's fonts, and the fonts
    left. *)
Theorem C53_fonts : forall m other this o i ext,
  lkids other = [o] ->
  ltag o = ext_tag -> ~ is_blocked m o ->
  lkids o <> [] -> (forall f, In f (lkids o) -> ltag f = font_tag) ->
  nth_error (lkids this) i = Some ext -> lah ext = lah o ->
  (forall j c, j < i -> nth_error (lkids this) j = Some c -> lah c <> lah o) ->
  let claimed := flat_map types_for (lkids o) in
  overlay m other this
  = Ok (set_kids this (replace_nth i
          (set_kids ext
             (filter (fun x => negb (is_font x)) (lkids ext) ++ lkids o ++
              (if memstr (lit "default") claimed then []
               else filter for_something (map (left_of claimed) (filter is_font (lkids ext))))))
          (lkids this))).
Proof.
  intros m other this o i ext Ek To Nb Ne Hf Hi Ha Hfirst claimed.
  rewrite overlay_any, Ek. cbn [fold_res]. unfold any_step. apply not_blocked in Nb. rewrite Nb, To, streq_refl.
  unfold ext_step.
  assert (key_index o (lkids this) = Some i) as ->.
  { unfold key_index. pose proof (index_where_spec (same_key o) (lkids this)) as I.
    destruct (index_where _ _) as [j|].
    - destruct I as (x & H1 & H2 & H3). unfold same_key in H2. apply Z.eqb_eq in H2.
      destruct (Nat.lt_trichotomy i j) as [L|[->|L]]; [|reflexivity|].
      + specialize (H3 i ext L Hi). unfold same_key in H3. apply Z.eqb_neq in H3. congruence.
      + exfalso. now apply (Hfirst j x).
    - apply nth_error_In in Hi. specialize (I ext Hi). unfold same_key in I. apply Z.eqb_neq in I. congruence. }
  rewrite Hi.
  match goal with |- context [fold_res ?f (lkids o) ?s] => set (step := f) end.
  assert (forall os fs e, (forall f, In f os -> ltag f = font_tag) ->
    fold_res step os (fs, e) = Ok (fold_left (fun fs o => take_types (types_for o) fs) os fs,
                                  set_kids e (lkids e ++ os))) as Fold.
  { induction os as [|f os IH]; intros fs e Hos; cbn [fold_res fold_left].
    - now rewrite app_nil_r, set_kids_same.
    - unfold step at 1. unfold is_font at 1. rewrite (Hos f (or_introl eq_refl)), streq_refl. cbn [bind fst snd].
      rewrite IH by (intros; apply Hos; now right). destruct e. cbn [set_kids lkids]. now rewrite <- app_assoc. }
  rewrite Fold by assumption. cbn [bind fst snd]. rewrite take_all by assumption. fold claimed.
  destruct ext. cbn [set_kids lkids]. now rewrite <- app_assoc.
Qed.

(** A font of this document without a types attribute is dropped whenever the other document
    has a font at all, even one for another type. *)
Theorem C53_default_dropped : forall claimed f fonts,
  lget f (lit "types") = None ->
  ~ In f (if memstr (lit "default") claimed then [] else filter for_something (map (left_of claimed) fonts)).
Proof.
  intros claimed f fonts Hf. destruct (memstr _ _); [intros []|]. intro H. apply filter_In in H as [_ H].
  unfold for_something in H. now rewrite Hf in H.
Qed.

(** ** Case: the document's own default font disappears, its fonts for ui and heading lose the
    type the other document has a font for *)
Definition fnt (name types : string) : lnode :=
  LNode font_tag ((lit "name", lit name) :: match lit types with [] => [] | t => [(lit "types", t)] end)
    None 5%Z 6%Z None [].
Definition fonts_of (l : list lnode) : lnode :=
  LNode (lit "special") [] None 1%Z 1%Z None [LNode ext_tag [] None 2%Z 2%Z None l].
Example C53_example :
  overlay no_meta (fonts_of [fnt "Other" "ui"])
    (fonts_of [fnt "Mine" ""; fnt "Head" "heading ui"; fnt "Ui" "ui"])
  = Ok (fonts_of [fnt "Other" "ui"; fnt "Head" "heading"]).
Proof. vm_compute. reflexivity. Qed.
