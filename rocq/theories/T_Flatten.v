(** C35: flattening and unflattening along the fallback chain. *)
From Coq Require Import String Sorted.
From Verif Require Import Py PyFacts M_LdmlBase M_Serialize M_Normalise M_Drafts M_Collation M_Paths M_Merge M_Flatten.
From Verif Require Import T_Drafts T_Paths T_Overlay T_Difference.
Local Open Scope list_scope.
Local Open Scope nat_scope.

(** * Specification *)

(** a name cut at one of its underscores, or the whole of it *)
Definition truncation (g f : pystr) : Prop := g = f \/ exists rest, f = g ++ 95%N :: rest.
(** the nonempty truncations of a name, longest first *)
Definition chain_of (f : pystr) (l : list pystr) : Prop :=
  (forall g, In g l <-> g <> [] /\ truncation g f) /\
  StronglySorted (fun a b => List.length b < List.length a) l.

(** the elements reached from one by a sequence of tags, in document order *)
Fixpoint elements_along (tags : list pystr) (n : lnode) : list lnode :=
  match tags with
  | [] => [n]
  | t :: tags' => flat_map (elements_along tags') (filter (fun c => streq (ltag c) t) (lkids n))
  end.
Definition first_along (tags : list pystr) (d : doc) (attr : pystr) : option pystr :=
  match elements_along tags (d_root d) with n :: _ => lget n attr | [] => None end.
(** the script a document says it is in *)
Definition script_of (d : doc) : option pystr :=
  match first_along [lit "identity"; lit "special"; reverse_localns (d_ns d) (lit "sil:identity")] d (lit "script") with
  | Some s => Some s
  | None => first_along [lit "identity"; lit "script"] d (lit "type")
  end.
(** a document can be used for another if it names no script or the same *)
Definition usable (d o : doc) : bool :=
  match script_of o with None => true | Some s => opteq (Some s) (script_of d) end.

(** one step of flattening: name [g] *)
Definition flatten_step (m : meta) (docs : pystr -> option doc) (d : doc) (g : pystr) (l : lnode) : res lnode :=
  match docs g with
  | Some o => if usable d o then overlay m (d_root o) (if streq g (lit "root") then flag_nonroots l else l) else Ok l
  | None => Ok l
  end.
(** the document to unflatten against *)
Fixpoint first_usable (docs : pystr -> option doc) (d : doc) (names : list pystr) : option doc :=
  match names with
  | [] => None
  | g :: names' => match docs g with
                   | Some o => if usable d o then Some o else first_usable docs d names'
                   | None => first_usable docs d names'
                   end
  end.

(** * Truncations *)
Lemma cut_last_spec r : (exists a b, r = a ++ 95%N :: b /\ ~ In 95%N a /\ cut_last r = rev b) \/ (~ In 95%N r /\ cut_last r = []).
Proof.
  induction r as [|c r IH]; cbn [cut_last].
  - right. split; [intros []|reflexivity].
  - destruct (N.eqb_spec c 95) as [->|Nc].
    + left. exists [], r. split; [reflexivity|]. split; [intros []|reflexivity].
    + destruct IH as [(a & b & -> & Ha & E)|[H E]].
      * left. exists (c :: a), b. split; [reflexivity|]. split; [|assumption]. intros [H|H]; congruence.
      * right. split; [|assumption]. intros [H1|H1]; congruence.
Qed.
(** the last underscore *)
Lemma trimtag_spec s : (exists r, s = trimtag s ++ 95%N :: r /\ ~ In 95%N r) \/ (~ In 95%N s /\ trimtag s = []).
Proof.
  unfold trimtag. destruct (cut_last_spec (rev s)) as [(a & b & E & Ha & ->)|[H ->]].
  - left. exists (rev a). split.
    + rewrite <- (rev_involutive s), E, rev_app_distr. cbn [rev]. now rewrite <- app_assoc.
    + intro H. apply Ha. now apply in_rev.
  - right. split; [|reflexivity]. intro Hs. apply H. now apply -> in_rev.
Qed.
Lemma trimtag_shorter s : s <> [] -> List.length (trimtag s) < List.length s.
Proof.
  intro H. destruct (trimtag_spec s) as [(r & E & _)|[_ ->]].
  - rewrite E at 2. rewrite app_length. cbn [List.length]. lia.
  - destruct s; [congruence|cbn; lia].
Qed.
Lemma last_sep (g r h q : pystr) : g ++ 95%N :: r = h ++ 95%N :: q -> ~ In 95%N q -> g = h \/ exists r', h = g ++ 95%N :: r'.
Proof.
  revert h. induction g as [|c g IH]; intros [|e h] E Hq; cbn [app] in E.
  - now left.
  - right. injection E as <- E. exists h. reflexivity.
  - exfalso. injection E as -> E. apply Hq. rewrite <- E. apply in_or_app. right. now left.
  - injection E as -> E. destruct (IH h E Hq) as [->|[r' ->]]; [now left|]. right. now exists r'.
Qed.
Lemma truncation_step g s : truncation g s -> g <> [] -> g = s \/ truncation g (trimtag s).
Proof.
  intros [->|[r E]] Ng; [now left|]. right. destruct (trimtag_spec s) as [(q & Es & Hq)|[H _]].
  - rewrite E in Es. destruct (last_sep _ _ _ _ Es Hq) as [H|[r' H]]; rewrite <- E in H; [left; now rewrite <- H|right]; eauto.
  - exfalso. apply H. rewrite E. apply in_or_app. right. now left.
Qed.
Lemma truncation_trim g s : truncation g (trimtag s) -> trimtag s <> [] -> truncation g s.
Proof.
  intros H Nt. destruct (trimtag_spec s) as [(q & E & _)|[_ E]]; [|contradiction]. right.
  destruct H as [->|[r Er]]; [eauto|]. exists (r ++ 95%N :: q). rewrite E at 1. rewrite Er. now rewrite <- app_assoc.
Qed.

Fixpoint chain_from (fuel : nat) (f : pystr) : list pystr :=
  match f, fuel with
  | [], _ | _, O => []
  | _, S fuel' => f :: chain_from fuel' (trimtag f)
  end.
Definition chain (f : pystr) : list pystr := chain_from (List.length f) f.
Lemma chain_from_shorter fuel f g : In g (chain_from fuel f) -> List.length g <= List.length f.
Proof.
  revert f. induction fuel as [|n IH]; intros f H; [destruct f; destruct H|].
  destruct f as [|c f]; [destruct H|]. cbn [chain_from] in H. destruct H as [<-|H]; [lia|].
  apply IH in H. pose proof (trimtag_shorter (c :: f)) as L. assert (c :: f <> []) as N by discriminate. specialize (L N). lia.
Qed.
Lemma chain_from_spec fuel f : List.length f <= fuel -> chain_of f (chain_from fuel f).
Proof.
  revert f. induction fuel as [|n IH]; intros f L.
  - destruct f as [|c f]; [|cbn in L; lia]. split; [|constructor]. intro g. split; [intros []|].
    intros [N [->|[r E]]]; [congruence|]. symmetry in E. apply app_eq_nil in E as [_ E]. discriminate.
  - destruct f as [|c f].
    + split; [|constructor]. intro g. split; [intros []|].
      intros [N [->|[r E]]]; [congruence|]. symmetry in E. apply app_eq_nil in E as [_ E]. discriminate.
    + cbn [chain_from]. set (s := c :: f) in *. assert (s <> []) as Ns by discriminate. pose proof (trimtag_shorter s Ns) as Ls.
      destruct (IH (trimtag s)) as [H1 H2]; [lia|]. split.
      * intro g. cbn [In]. rewrite H1. split.
        -- intros [<-|[Ng H]]; [split; [assumption|now left]|]. split; [assumption|]. apply truncation_trim; [assumption|].
           intro E. rewrite E in H. destruct H as [->|[r Er]]; [congruence|]. symmetry in Er. apply app_eq_nil in Er as [_ Er]. discriminate.
        -- intros [Ng H]. destruct (truncation_step _ _ H Ng) as [->|H']; [now left|]. right. now split.
      * constructor; [assumption|]. apply Forall_forall. intros g Hg. apply chain_from_shorter in Hg. lia.
Qed.
Lemma chain_spec f : chain_of f (chain f).
Proof. apply chain_from_spec. lia. Qed.

(** * The script *)
Lemma walks_elements tags : forall n, Forall (fun t => t <> lit ".") tags ->
  map (fun w => at_place n (below [] w)) (walks n (map (fun t => (t, [])) tags)) = map Some (elements_along tags n).
Proof.
  induction tags as [|t tags IH]; intros n Ht; [reflexivity|]. inversion Ht as [|? ? H1 H2]; subst.
  cbn [map walks fst elements_along]. destruct (streq_spec t (lit ".")) as [|_]; [contradiction|].
  assert (forall l, (forall i c, In (i, c) l -> nth_error (lkids n) i = Some c) ->
    map (fun w => at_place n (below [] w))
      (flat_map (fun ic : nat * lnode => map (cons (fst ic)) (walks (snd ic) (map (fun t => (t, [])) tags)))
         (filter (fun ic : nat * lnode => step_match (t, []) (snd ic)) l))
    = map Some (flat_map (elements_along tags) (filter (fun c => streq (ltag c) t) (map snd l)))) as Q.
  { induction l as [|[i c] l IHl]; intro Hl; [reflexivity|]. cbn [filter map snd].
    assert (step_match (t, []) c = streq (ltag c) t) as -> by (unfold step_match; cbn [fst snd forallb]; apply Bool.andb_true_r).
    destruct (streq (ltag c) t); [|apply IHl; intros; apply Hl; now right].
    cbn [flat_map fst snd]. rewrite !map_app, IHl by (intros; apply Hl; now right). f_equal. rewrite map_map.
    rewrite <- IH by assumption. apply map_ext. intro w. unfold below. cbn [app map at_place].
    rewrite (Hl i c (or_introl eq_refl)). reflexivity. }
  rewrite Q by (intros i c Hi; now apply in_items).
  assert (forall l k, map snd (combine (seq k (List.length l)) l) = l :> list lnode) as ->; [|reflexivity].
  induction l as [|y l IHl]; intro k; [reflexivity|]. cbn. now rewrite IHl.
Qed.

Section Script.
  Variable ws : N -> bool.
  Variable hasher : pystr -> Z.
  Variable m : meta.
  Lemma find_in_spec d path tags :
    read_path ws (d_ns d) path = Ok (map (fun t => (t, [])) tags) -> Forall (fun t => t <> lit ".") tags ->
    find_in ws hasher m d path = Ok (hd_error (elements_along tags (d_root d))).
  Proof.
    intros Hp Ht. unfold find_in, find, findall, ensure_path, process_path. rewrite Hp. cbn [negb bind].
    rewrite unify_find by (repeat constructor; cbn; congruence). cbn [bind fst snd flat_map]. rewrite app_nil_r.
    unfold from_place. cbn [at_place].
    pose proof (walks_elements tags (d_root d) Ht) as E.
    destruct (walks (d_root d) (map (fun t => (t, [])) tags)) as [|w l]; cbn [map] in *.
    - destruct (elements_along tags (d_root d)); [reflexivity|discriminate].
    - destruct (elements_along tags (d_root d)) as [|x l']; [discriminate|]. cbn [map] in E. injection E as E _.
      cbn [hd_error]. now rewrite E.
  Qed.
  Lemma reverse_localns_dot ns t : t = lit "sil:identity" -> reverse_localns ns t <> lit ".".
  Proof.
    intros ->. unfold reverse_localns. set (p := partition1 58%N (lit "sil:identity")). vm_compute in p. subst p. cbv iota.
    destruct (M_LdmlBase.key_of ns _); vm_compute; discriminate.
  Qed.
  Lemma getscript_spec d : getscript ws hasher m d = Ok (script_of d).
  Proof.
    unfold getscript, script_of, first_along.
    rewrite (find_in_spec d (lit "identity/special/sil:identity") [lit "identity"; lit "special"; reverse_localns (d_ns d) (lit "sil:identity")]).
    - cbn [bind].
      rewrite (find_in_spec d (lit "identity/script") [lit "identity"; lit "script"]).
      + cbn [bind]. destruct (elements_along [lit "identity"; lit "special"; _] _) as [|n l]; cbn [hd_error].
        * destruct (elements_along _ _); reflexivity.
        * destruct (lget n (lit "script")); [reflexivity|]. destruct (elements_along _ _); reflexivity.
      + reflexivity.
      + repeat constructor; vm_compute; discriminate.
    - reflexivity.
    - constructor; [vm_compute; discriminate|]. constructor; [vm_compute; discriminate|].
      constructor; [|constructor]. now apply reverse_localns_dot.
  Qed.
End Script.

Lemma Forall2_chains fs : Forall2 chain_of fs (map chain fs).
Proof. induction fs as [|f fs IH]; constructor; [apply chain_spec|exact IH]. Qed.
Lemma fold_res_app {X S} (f : X -> S -> res S) l l' s :
  fold_res f (l ++ l') s = do s' <- fold_res f l s; fold_res f l' s'.
Proof. revert s. induction l as [|x l IH]; intro s; [reflexivity|]. cbn [app fold_res]. destruct (f x s); cbn [bind]; [apply IH|reflexivity]. Qed.

Section Flattening.
  Variable ws : N -> bool.
  Variable hasher : pystr -> Z.
  Variable m : meta.
  Variable docs : pystr -> option doc.
  Notation flattenlocale := (flattenlocale ws hasher m docs).
  Notation along := (along ws hasher m docs).
  Notation apply_all := (apply_all ws hasher m docs).

  Lemma usable_test d o : match script_of o with None => true | Some _ => opteq (script_of o) (script_of d) end = usable d o.
  Proof. unfold usable. destruct (script_of o); reflexivity. Qed.
  Lemma along_flatten d fuel : forall f l, List.length f <= fuel ->
    along false (script_of d) fuel f l = do l' <- fold_res (flatten_step m docs d) (chain_from fuel f) l; Ok (l', true).
  Proof.
    induction fuel as [|n IH]; intros f l L.
    - destruct f; [reflexivity|cbn in L; lia].
    - destruct f as [|c f]; [reflexivity|]. cbn [M_Flatten.along chain_from fold_res]. set (s := c :: f) in *.
      assert (List.length (trimtag s) <= n) as Ls by (pose proof (trimtag_shorter s ltac:(discriminate)); lia).
      unfold flatten_step at 1. destruct (docs s) as [o|]; [|cbn [bind]; now apply IH].
      rewrite getscript_spec. cbn [bind]. rewrite usable_test. destruct (usable d o); [|cbn [bind]; now apply IH].
      change root_name with (lit "root").
      destruct (overlay m (d_root o) _) as [l'|]; cbn [bind]; [now apply IH|reflexivity].
  Qed.
  Lemma along_unflatten d fuel : forall f l, List.length f <= fuel ->
    along true (script_of d) fuel f l = Ok (match first_usable docs d (chain_from fuel f) with
                                            | Some o => (snd (difference m (d_root o) l), false)
                                            | None => (l, true)
                                            end).
  Proof.
    induction fuel as [|n IH]; intros f l L.
    - destruct f; [reflexivity|cbn in L; lia].
    - destruct f as [|c f]; [reflexivity|]. cbn [M_Flatten.along chain_from first_usable]. set (s := c :: f) in *.
      assert (List.length (trimtag s) <= n) as Ls by (pose proof (trimtag_shorter s ltac:(discriminate)); lia).
      destruct (docs s) as [o|]; [|now apply IH].
      rewrite getscript_spec. cbn [bind]. rewrite usable_test. destruct (usable d o); [reflexivity|now apply IH].
  Qed.
  Lemma apply_flatten d fs : forall l,
    apply_all false (script_of d) fs l = fold_res (flatten_step m docs d) (flat_map chain fs) l.
  Proof.
    induction fs as [|f fs IH]; intro l; [reflexivity|]. cbn [M_Flatten.apply_all flat_map]. rewrite fold_res_app.
    rewrite along_flatten by lia. unfold chain at 1. destruct (fold_res _ (chain_from _ f) l); cbn [bind snd fst]; [apply IH|reflexivity].
  Qed.
  Lemma first_usable_app d l l' : first_usable docs d (l ++ l')
    = match first_usable docs d l with Some o => Some o | None => first_usable docs d l' end.
  Proof.
    induction l as [|g l IH]; [reflexivity|]. cbn [app first_usable]. destruct (docs g) as [o|]; [|exact IH].
    destruct (usable d o); [reflexivity|exact IH].
  Qed.
  Lemma apply_unflatten d fs : forall l,
    apply_all true (script_of d) fs l = Ok (match first_usable docs d (flat_map chain fs) with
                                            | Some o => snd (difference m (d_root o) l) | None => l end).
  Proof.
    induction fs as [|f fs IH]; intro l; [reflexivity|]. cbn [M_Flatten.apply_all flat_map]. rewrite first_usable_app.
    rewrite along_unflatten by lia. unfold chain at 1. cbn [bind].
    destruct (first_usable docs d (chain_from _ f)) as [o|]; cbn [fst snd]; [reflexivity|apply IH].
  Qed.

  (** ** The names of the fallbacks *)
  Definition no_fallback_element (d : doc) : Prop := forall c, In c (lkids (d_root d)) -> ltag c <> lit "fallback".
  Lemma parents_ok d table name : no_fallback_element d ->
    get_parent_locales d table name = Ok (match dget streq table name with Some l => l | None => [] end).
  Proof.
    intro H. unfold get_parent_locales. destruct (existsb _ _) eqn:E; [|reflexivity]. exfalso.
    apply existsb_exists in E as (c & Hc & E). apply streq_true in E. exact (H c Hc E).
  Qed.
  (** the declared parents, or else the name without its last part, and the root *)
  Theorem C35_fallbacks : forall d table name, no_fallback_element d ->
    exists fs table', fallbacks d table name = Ok (fs, table') /\
      (forall g, In g fs <->
         match dget streq table name with
         | Some (p :: ps) => In g (p :: ps)
         | _ => g = trimtag name
         end \/ (g = lit "root" /\ name <> lit "root")) /\
      (forall n, n <> name -> dget streq table' n = dget streq table n).
  Proof.
    intros d table name H. unfold fallbacks. rewrite (parents_ok _ _ _ H). cbn [bind].
    change root_name with (lit "root").
    assert (forall T : partable, (forall g, In g (trimtag name :: (if (streq name (lit "root") || streq (trimtag name) (lit "root"))%bool then [] else [lit "root"]))
               <-> g = trimtag name \/ (g = lit "root" /\ name <> lit "root"))) as Q1.
    { intros _ g. destruct (streq_spec name (lit "root")) as [En|Nn]; cbn [orb].
      - cbn [In]. intuition congruence.
      - destruct (streq_spec (trimtag name) (lit "root")) as [Et|Nt]; cbn [In]; intuition congruence. }
    destruct (dget streq table name) as [[|p ps]|] eqn:Ed.
    - eexists _, table. split; [reflexivity|]. split; [now apply Q1|reflexivity].
    - destruct (memstr (lit "root") (p :: ps) || streq name (lit "root"))%bool eqn:Er.
      + exists (p :: ps), table. split; [reflexivity|]. split; [|reflexivity].
        intro g. split; [tauto|]. intros [Hg|[-> Nn]]; [assumption|].
        apply Bool.orb_true_iff in Er as [Er|Er]; [now apply memstr_iff|]. apply streq_true in Er. contradiction.
      + apply Bool.orb_false_iff in Er as [_ Er]. eexists _, _. split; [reflexivity|]. split.
        * intro g. rewrite in_app_iff. cbn [In]. destruct (streq_spec name (lit "root")); [discriminate|]. intuition congruence.
        * intros n Hn. now apply (dget_dset_other _ streq_spec).
    - eexists _, table. split; [reflexivity|]. split; [now apply Q1|reflexivity].
  Qed.
  (** a fallback element is an error *)
  Theorem C35_fallback_element : forall d name dir changed table c, dir <> CopyOnly ->
    In c (lkids (d_root d)) -> ltag c = lit "fallback" ->
    flattenlocale d name dir changed false table = Raise AttributeError.
  Proof.
    intros d name dir changed table c Hd Hc Ht. unfold M_Flatten.flattenlocale. cbn [andb]. rewrite getscript_spec. cbn [bind].
    assert (fallbacks d table name = Raise AttributeError) as ->.
    { unfold fallbacks, get_parent_locales.
      assert (existsb (fun c => streq (ltag c) (lit "fallback")) (lkids (d_root d)) = true) as ->; [|reflexivity].
      apply existsb_exists. exists c. split; [assumption|]. apply streq_true. assumption. }
    destruct dir; try reflexivity. congruence.
  Qed.

  (** ** C35: flattening puts the usable documents of the chains under the document, in order;
      unflattening compares with the first. *)
  Theorem C35_flatten : forall d name table fs table',
    fallbacks d table name = Ok (fs, table') ->
    exists chains, Forall2 chain_of fs chains /\
      flattenlocale d name Flatten [] false table
      = (do l <- fold_res (flatten_step m docs d) (concat chains) (d_root d); Ok (Some (with_root d l), table')).
  Proof.
    intros d name table fs table' E. exists (map chain fs). split; [apply Forall2_chains|].
    unfold M_Flatten.flattenlocale. cbn [andb]. rewrite getscript_spec. cbn [bind]. rewrite E. cbn [bind].
    rewrite apply_flatten, flat_map_concat_map. reflexivity.
  Qed.
  Theorem C35_unflatten : forall d name table fs table',
    fallbacks d table name = Ok (fs, table') ->
    exists chains, Forall2 chain_of fs chains /\
      flattenlocale d name Unflatten [] false table
      = Ok (Some (match first_usable docs d (concat chains) with
                  | Some o => with_root d (snd (difference m (d_root o) (d_root d)))
                  | None => d
                  end), table').
  Proof.
    intros d name table fs table' E. exists (map chain fs). split; [apply Forall2_chains|].
    unfold M_Flatten.flattenlocale. cbn [andb]. rewrite getscript_spec. cbn [bind]. rewrite E. cbn [bind].
    rewrite apply_unflatten, flat_map_concat_map. cbn [bind]. destruct (first_usable _ _ _); [reflexivity|]. now destruct d.
  Qed.
  Theorem C35_copy : forall d name changed table,
    flattenlocale d name CopyOnly changed false table = Ok (Some d, table).
  Proof. intros d name changed table. unfold M_Flatten.flattenlocale. cbn [andb]. rewrite getscript_spec. reflexivity. Qed.

  (** The table gains the root at the name, and the second call does what the first did. *)
  Theorem C35_again : forall d name dir changed skip table r table',
    flattenlocale d name dir changed skip table = Ok (r, table') ->
    flattenlocale d name dir changed skip table' = Ok (r, table').
  Proof.
    intros d name dir changed skip table r table' E. unfold M_Flatten.flattenlocale in *.
    destruct (skip && is_stub (d_root d))%bool; [now injection E as <- <-|].
    rewrite getscript_spec in *. cbn [bind] in *.
    assert (forall fs T, fallbacks d table name = Ok (fs, T) -> fallbacks d T name = Ok (fs, T)) as Q.
    { unfold fallbacks, get_parent_locales. intros fs T. destruct (existsb _ _); [discriminate|]. cbn [bind].
      destruct (dget streq table name) as [[|p ps]|] eqn:Ed.
      - intro H. injection H as <- <-. now rewrite Ed.
      - destruct (memstr root_name (p :: ps) || streq name root_name)%bool eqn:Er.
        + intro H. injection H as <- <-. now rewrite Ed, Er.
        + intro H. injection H as <- <-. rewrite (dget_dset_same _ streq_spec). cbn [app].
          assert (memstr root_name (p :: ps ++ [root_name]) = true) as ->; [|reflexivity].
          apply memstr_iff. right. apply in_or_app. right. now left.
      - intro H. injection H as <- <-. now rewrite Ed. }
    destruct dir; [| |now injection E as <- <-];
      (destruct (fallbacks d table name) as [[fs T]|] eqn:Ef; cbn [bind] in E; [|discriminate];
       assert (T = table') as -> by (destruct (_ && _)%bool; [now injection E|];
         destruct (M_Flatten.apply_all _ _ _ _ _ _ _ _); cbn [bind] in E; [|discriminate];
         destruct (_ && _)%bool; now injection E);
       rewrite (Q _ _ eq_refl); cbn [bind]; exact E).
  Qed.

  (** Only the entry of the name itself is looked up in the table of parents: the parents of its
      parents do not matter. *)
  Theorem C35_not_transitive : forall d name dir changed skip table1 table2,
    dget streq table1 name = dget streq table2 name ->
    match flattenlocale d name dir changed skip table1, flattenlocale d name dir changed skip table2 with
    | Ok (r1, _), Ok (r2, _) => r1 = r2
    | Raise e1, Raise e2 => e1 = e2
    | _, _ => False
    end.
  Proof.
    intros d name dir changed skip table1 table2 E. unfold M_Flatten.flattenlocale.
    destruct (skip && is_stub (d_root d))%bool; [reflexivity|]. rewrite getscript_spec. cbn [bind].
    assert (match fallbacks d table1 name, fallbacks d table2 name with
            | Ok (f1, _), Ok (f2, _) => f1 = f2 | Raise e1, Raise e2 => e1 = e2 | _, _ => False end) as Q.
    { unfold fallbacks, get_parent_locales. destruct (existsb _ _); [reflexivity|]. cbn [bind]. rewrite E.
      destruct (dget streq table2 name) as [[|p ps]|]; [reflexivity| |reflexivity].
      destruct (_ || _)%bool; reflexivity. }
    destruct dir; try reflexivity;
      (destruct (fallbacks d table1 name) as [[f1 T1]|], (fallbacks d table2 name) as [[f2 T2]|]; cbn [bind]; try contradiction; [subst f2|assumption];
       destruct (_ && _)%bool; [reflexivity|]; destruct (M_Flatten.apply_all _ _ _ _ _ _ _ _); cbn [bind]; [|reflexivity];
       destruct (_ && _)%bool; reflexivity).
  Qed.

  (** A set of changed names stops the work unless it has one of the fallbacks themselves; a
      change further up a chain does not count. *)
  Theorem C35_changed : forall d name dir changed table fs table', dir <> CopyOnly ->
    fallbacks d table name = Ok (fs, table') -> changed <> [] ->
    (flattenlocale d name dir changed false table = Ok (None, table') <-> forall f, In f fs -> ~ In f changed).
  Proof.
    intros d name dir changed table fs table' Hd E Hc. unfold M_Flatten.flattenlocale. cbn [andb]. rewrite getscript_spec. cbn [bind].
    rewrite E. cbn [bind]. destruct changed as [|c0 changed]; [congruence|]. cbn [andb].
    destruct (existsb (fun f => memstr f (c0 :: changed)) fs) eqn:Ex; cbn [negb].
    - apply existsb_exists in Ex as (f & Hf & Hm). apply memstr_iff in Hm. split.
      + intro H. exfalso. destruct dir; [| |congruence]; destruct (M_Flatten.apply_all _ _ _ _ _ _ _ _); cbn [bind] in H; discriminate.
      + intro H. exfalso. exact (H f Hf Hm).
    - split; [|intros _; now destruct dir]. intros _ f Hf Hm. apply memstr_iff in Hm.
      assert (existsb (fun f => memstr f (c0 :: changed)) fs = true) by (apply existsb_exists; eauto). congruence.
  Qed.

  (** a stub has an identity and nothing else *)
  Definition stub (n : lnode) : Prop := exists c, lkids n = [c] /\ ltag c = lit "identity".
  Lemma stub_spec n : reflect (stub n) (is_stub n).
  Proof.
    unfold is_stub, stub. destruct (lkids n) as [|c [|c' l]] eqn:E; try (constructor; intros (x & Q & _); discriminate).
    destruct (streq_spec (ltag c) (lit "identity")) as [Ec|Nc]; constructor; [now exists c|]. intros (x & Q & R). injection Q as ->. contradiction.
  Qed.
  (** When stubs are skipped, a stub gives nothing, also one that is the result; all else is as when they are not. *)
  Theorem C35_stubs : forall d name dir changed table,
    (stub (d_root d) -> flattenlocale d name dir changed true table = Ok (None, table)) /\
    (~ stub (d_root d) ->
       (forall e, flattenlocale d name dir changed false table = Raise e -> flattenlocale d name dir changed true table = Raise e) /\
       (forall T, flattenlocale d name dir changed false table = Ok (None, T) -> flattenlocale d name dir changed true table = Ok (None, T)) /\
       (forall d' T, flattenlocale d name dir changed false table = Ok (Some d', T) ->
          (stub (d_root d') -> flattenlocale d name dir changed true table = Ok (None, T)) /\
          (~ stub (d_root d') -> flattenlocale d name dir changed true table = Ok (Some d', T)))).
  Proof.
    intros d name dir changed table. unfold M_Flatten.flattenlocale. cbn [andb].
    destruct (stub_spec (d_root d)) as [Hs|Hs]; (split; [intro H|intro H]); try contradiction; [reflexivity|].
    destruct (getscript _) as [ls|]; cbn [bind]; [|repeat split; intros; congruence].
    assert (forall l, d_root (with_root d l) = l) as W by reflexivity.
    destruct dir.
    3:{ split; [discriminate|]. split; [discriminate|]. intros d' T E. injection E as <- <-. split; [contradiction|reflexivity]. }
    all: destruct (fallbacks d table name) as [[fs T0]|]; cbn [bind]; [|repeat split; intros; congruence].
    all: destruct (_ && _)%bool; [repeat split; intros; congruence|].
    all: destruct (M_Flatten.apply_all _ _ _ _ _ _ _ _) as [l|]; cbn [bind]; [|repeat split; intros; congruence].
    all: split; [discriminate|]; split; [discriminate|]; intros d' T E; injection E as <- <-; rewrite W; destruct (stub_spec l); split; intro; try contradiction; reflexivity.
  Qed.

  (** ** Nothing of the document is lost by flattening *)
  Definition close (t t' : lnode) : Prop :=
    ltag t' = ltag t /\ lah t' = lah t /\ lch t' = lch t /\ lalts t' = lalts t /\
    (forall a, a <> modified_attr -> lget t' a = lget t a) /\
    (ltext t <> Some arrows -> ltext t' = ltext t).
  Lemma close_refl t : close t t. Proof. unfold close. repeat split; auto. Qed.
  Lemma close_trans a b c : close a b -> close b c -> close a c.
  Proof.
    unfold close. intros (A1 & A2 & A3 & A4 & A5 & A6) (B1 & B2 & B3 & B4 & B5 & B6). repeat split; try congruence.
    - intros x Hx. rewrite B5, A5; auto.
    - intro H. rewrite B6, A6; auto. rewrite A6; auto.
  Qed.
  Lemma find_key_map f k l : (forall x, lah (f x) = lah x) -> find_key k (map f l) = option_map f (find_key k l).
  Proof.
    intro H. unfold find_key. induction l as [|y l IH]; [reflexivity|]. cbn [map List.find]. rewrite H.
    destruct (Z.eqb (lah y) k); [reflexivity|exact IH].
  Qed.
  Lemma flag_close s p t : lookup s p = Some t -> exists t', lookup (flag_nonroots s) p = Some t' /\ close t t'.
  Proof.
    assert (forall x a, close x (set_attrs x (dset streq (lattrs x) modified_attr a))) as C1.
    { intros x a. destruct x as [tg at_ tx h c al ks]. unfold close. cbn [set_attrs ltag lah lch lalts ltext lget lattrs]. repeat split; auto.
      intros y Hy. unfold lget. cbn [lattrs]. now apply (dget_dset_other _ streq_spec). }
    set (f2 := fun c => if streq (ltag c) (lit "collation")
                        then set_attrs c (dset streq (lattrs c) modified_attr (lit "true")) else c).
    set (f1 := fun cs => if streq (ltag cs) (lit "collations") then set_kids cs (map f2 (lkids cs)) else cs).
    assert (forall x, lah (f2 x) = lah x) as L2 by (intro x; unfold f2; destruct (streq _ _); [now destruct x|reflexivity]).
    assert (forall x, lah (f1 x) = lah x) as L1 by (intro x; unfold f1; destruct (streq _ _); [now destruct x|reflexivity]).
    assert (forall x, close x (f2 x)) as C2 by (intro x; unfold f2; destruct (streq _ _); [apply C1|apply close_refl]).
    assert (forall x ks, close x (set_kids x ks)) as CK
      by (intros x ks; destruct x; unfold close, lget; cbn; repeat split; auto).
    assert (forall x, lkids (f2 x) = lkids x) as K2 by (intro x; unfold f2; destruct (streq _ _); [now destruct x|reflexivity]).
    unfold flag_nonroots. fold f2. fold f1. destruct p as [|k p]; cbn [lookup].
    - intro E. injection E as <-. eexists. split; [reflexivity|apply CK].
    - assert (lkids (set_kids s (map f1 (lkids s))) = map f1 (lkids s)) as -> by now destruct s. rewrite find_key_map by exact L1.
      destruct (find_key k (lkids s)) as [c|]; [|discriminate]. cbn [option_map].
      destruct p as [|k2 p]; cbn [lookup].
      + intro E. injection E as <-. eexists. split; [reflexivity|]. unfold f1. destruct (streq _ _); [apply CK|apply close_refl].
      + unfold f1. destruct (streq (ltag c) (lit "collations")); [|intro E; eexists; split; [exact E|apply close_refl]].
        assert (lkids (set_kids c (map f2 (lkids c))) = map f2 (lkids c)) as -> by now destruct c. rewrite find_key_map by exact L2.
        destruct (find_key k2 (lkids c)) as [e|]; [|discriminate]. cbn [option_map]. destruct p as [|k3 p]; cbn [lookup].
        * intro E. injection E as <-. eexists. split; [reflexivity|apply C2].
        * rewrite K2. intro E. eexists. split; [exact E|apply close_refl].
  Qed.

  Theorem C35_kept : forall d name table fs table',
    fallbacks d table name = Ok (fs, table') ->
    (forall g o, docs g = Some o -> keyed (d_root o) /\ no_fonts (d_root o)) ->
    exists r, flattenlocale d name Flatten [] false table = Ok (Some r, table') /\
      forall p t, lookup (d_root d) p = Some t -> exists t', lookup (d_root r) p = Some t' /\ close t t'.
  Proof.
    intros d name table fs table' E HD. destruct (C35_flatten d name table fs table' E) as (chains & _ & EF). rewrite EF. clear EF.
    assert (forall names l, exists l', fold_res (flatten_step m docs d) names l = Ok l' /\
              forall p t, lookup l p = Some t -> exists t', lookup l' p = Some t' /\ close t t') as Q.
    { induction names as [|g names IH]; intro l; cbn [fold_res].
      - exists l. split; [reflexivity|]. intros p t H. exists t. split; [assumption|apply close_refl].
      - assert (exists l1, flatten_step m docs d g l = Ok l1 /\
                  forall p t, lookup l p = Some t -> exists t', lookup l1 p = Some t' /\ close t t') as (l1 & E1 & H1).
        { unfold flatten_step. destruct (docs g) as [o|] eqn:Eg;
            [|exists l; split; [reflexivity|intros p t H; exists t; split; [assumption|apply close_refl]]].
          destruct (usable d o); [|exists l; split; [reflexivity|intros p t H; exists t; split; [assumption|apply close_refl]]].
          destruct (HD g o Eg) as [K F].
          destruct (C31_kept m (if streq g (lit "root") then flag_nonroots l else l) (d_root o) K F) as (l1 & E1 & H1).
          exists l1. split; [assumption|]. intros p t Hp.
          assert (exists t0, lookup (if streq g (lit "root") then flag_nonroots l else l) p = Some t0 /\ close t t0) as (t0 & Ht0 & C0).
          { destruct (streq g (lit "root")); [now apply flag_close|]. exists t. split; [assumption|apply close_refl]. }
          destruct (H1 p t0 Ht0) as (t' & Ht' & (S1 & S2 & S3 & S4 & S5) & HT & _). exists t'. split; [assumption|].
          eapply close_trans; [exact C0|]. unfold close, lget. rewrite S2. repeat split; auto.
          intro Na. destruct HT as [HT|[HT _]]; [assumption|contradiction]. }
        rewrite E1. cbn [bind]. destruct (IH l1) as (l2 & E2 & H2). exists l2. split; [assumption|].
        intros p t Hp. destruct (H1 p t Hp) as (t1 & Hp1 & C1). destruct (H2 p t1 Hp1) as (t2 & Hp2 & C2).
        exists t2. split; [assumption|]. eapply close_trans; eassumption. }
    destruct (Q (concat chains) (d_root d)) as (l' & -> & H). cbn [bind]. exists (with_root d l'). split; [reflexivity|exact H].
  Qed.
End Flattening.

(** ** The table of parents: the parents that mention a locale, in order *)
Definition parents_of (ws : N -> bool) (ps : list (pystr * pystr)) (l : pystr) : list pystr :=
  flat_map (fun p : pystr * pystr => map (fun _ => fst p) (filter (streq l) (words ws (snd p)))) ps.
Theorem C35_parents : forall ws ps l,
  dget streq (read_parents ws ps) l = match parents_of ws ps l with [] => None | ps => Some ps end.
Proof.
  intros ws ps l. unfold read_parents.
  assert (forall (d : partable) v, dget streq d l = match v with [] => None | _ => Some v end ->
    dget streq (fold_left (fun d (p : pystr * pystr) =>
       fold_left (fun d l => match dget streq d l with
                             | Some v => dset streq d l (v ++ [fst p]) | None => dset streq d l [fst p] end)
         (words ws (snd p)) d) ps d) l
    = match v ++ parents_of ws ps l with [] => None | r => Some r end) as Q; [|apply (Q [] []); reflexivity].
  induction ps as [|[p ls] ps IH]; intros d v Hd; unfold parents_of; cbn [fold_left flat_map fst snd].
  - rewrite app_nil_r. rewrite Hd. now destruct v.
  - rewrite app_assoc. fold (parents_of ws ps l). apply IH. clear IH. revert d v Hd. generalize (words ws ls). clear. intro w.
    induction w as [|x w IH]; intros d v Hd; cbn [fold_left filter map].
    + rewrite app_nil_r. rewrite Hd. now destruct v.
    + destruct (streq_spec l x) as [<-|N].
      * cbn [map]. change (p :: map (fun _ => p) (filter (streq l) w)) with ([p] ++ map (fun _ => p) (filter (streq l) w)).
        rewrite app_assoc. apply IH. destruct v as [|v0 v]; rewrite Hd.
        -- apply (dget_dset_same _ streq_spec).
        -- rewrite (dget_dset_same _ streq_spec). reflexivity.
      * apply IH. destruct (dget streq d x); rewrite (dget_dset_other _ streq_spec) by assumption; exact Hd.
Qed.

(** * Examples *)
Definition mkd (kids : list lnode) : doc := mkDoc (branch "ldml" 0 9 kids) [].
Definition ex_docs (g : pystr) : option doc :=
  if streq g (lit "en") then Some (mkd [leaf "a" "en" 1 11; leaf "b" "en" 2 21])
  else if streq g (lit "root") then Some (mkd [leaf "a" "root" 1 12; leaf "c" "root" 3 31])
  else None.
Definition ex_ws (c : N) : bool := N.eqb c 32.
Example C35_example_chain : chain (lit "en_GB_oed") = [lit "en_GB_oed"; lit "en_GB"; lit "en"].
Proof. vm_compute. reflexivity. Qed.
Example C35_example_flatten :
  flattenlocale ex_ws (fun _ => 0%Z) no_meta ex_docs (mkd [leaf "b" "GB" 2 22]) (lit "en_GB_oed") Flatten [] false []
  = Ok (Some (mkd [leaf "b" "GB" 2 22; leaf "a" "en" 1 11; leaf "c" "root" 3 31]), []).
Proof. vm_compute. reflexivity. Qed.
Example C35_example_kept : forall g o, ex_docs g = Some o -> keyed (d_root o) /\ no_fonts (d_root o).
Proof.
  intros g o. unfold ex_docs. destruct (streq g (lit "en")); [|destruct (streq g (lit "root")); [|discriminate]];
    intro E; injection E as <-; (split; [apply keyed_ok|apply tag_not_ok]; vm_compute; reflexivity).
Qed.
(** the change of a document that is used is not noticed *)
Example C35_example_changed :
  flattenlocale ex_ws (fun _ => 0%Z) no_meta ex_docs (mkd [leaf "b" "GB" 2 22]) (lit "en_GB_oed") Flatten [lit "en"] false []
  = Ok (None, []).
Proof. vm_compute. reflexivity. Qed.
(** declared parents; the table gets the root *)
Example C35_example_table :
  let t := read_parents ex_ws [(lit "en_001", lit "en_GB en_150"); (lit "en_150", lit "en_DE")] in
  fallbacks (mkd []) t (lit "en_DE") = Ok ([lit "en_150"; lit "root"], dset streq t (lit "en_DE") [lit "en_150"; lit "root"]).
Proof. vm_compute. reflexivity. Qed.
(** an identity alone is a stub; an identity and more, or nothing at all, is none *)
Example C35_example_stub :
  stub (d_root (mkd [leaf "identity" "" 5 51])) /\ ~ stub (d_root (mkd [leaf "identity" "" 5 51; leaf "a" "en" 1 11])) /\ ~ stub (d_root (mkd [])).
Proof. split; [now eexists|]. split; intros (c & E & _); discriminate. Qed.
