(** C99: the notes that merging leaves where both sides changed something, and whether comments
    can be read again once they are written. *)
From Coq Require Import String Lia Permutation.
From Verif Require Import Py PyFacts M_LdmlBase M_Serialize M_Normalise M_Drafts T_Drafts T_Promote T_AddNode M_Merge T_Overlay T_Difference M_Merge3 T_Merge3 M_TreeBuilder T_TreeBuilder T_Reader M_ClashComments.
Local Open Scope list_scope.
Local Open Scope nat_scope.

(** * Specification: notes *)

(** The elements at the same place in the three documents, with different content in all three
    at every step of the way. *)
Fixpoint contested (t o b : lnode) (p : list Z) : option (lnode * lnode * lnode) :=
  match p with
  | [] => Some (t, o, b)
  | k :: p' =>
      match find_key k (lkids t), find_key k (lkids o), find_key k (lkids b) with
      | Some t', Some o', Some b' =>
          if Z.eq_dec (lch t') (lch o') then None
          else if Z.eq_dec (lch t') (lch b') then None
          else if Z.eq_dec (lch o') (lch b') then None
          else contested t' o' b' p'
      | _, _, _ => None
      end
  end.
Definition opt_dec (a b : option pystr) : {a = b} + {a <> b}.
Proof. decide equality. decide equality. decide equality. decide equality. Defined.
Definition quoted (o : option pystr) : pystr :=
  lit """" ++ match o with Some s => s | None => lit "None" end ++ lit """".
(** the notes of one element: one for the text if both sides changed it, and one for each
    attribute, in the order they have here, that both sides have with different values, unless the
    base has the value it has here *)
Definition notes_of (t o b : lnode) : list pystr :=
  (if opt_dec (ltext t) (ltext b) then [] else if opt_dec (ltext o) (ltext b) then []
   else [lit "Clash: " ++ quoted (ltext t) ++ lit " or " ++ quoted (ltext o) ++ lit " from " ++ quoted (ltext b)])
  ++ flat_map
       (fun kv : pystr * pystr =>
          let (k, tv) := kv in
          match lget o k with
          | None => []
          | Some ov =>
              if opt_dec (Some tv) (Some ov) then []
              else if opt_dec (lget b k) (Some tv) then []
              else [lit "Attribute (" ++ k ++ lit ") clash: " ++ quoted (Some tv) ++ lit " or " ++ quoted (Some ov)
                    ++ lit " from " ++ quoted (lget b k)]
          end)
       (lattrs t).
(** the notes of the element at a place *)
Definition notes_at (p : list Z) (l : list (list Z * pystr)) : list pystr :=
  flat_map (fun pn => if list_eq_dec Z.eq_dec (fst pn) p then [snd pn] else []) l.

(** * Proofs: notes *)
Lemma opteq_dec {A} a b (x y : A) : (if opteq a b then x else y) = if opt_dec a b then x else y.
Proof. destruct (opteq_spec a b), (opt_dec a b); congruence. Qed.
Lemma three_quoted t o b : three t o b = quoted t ++ lit " or " ++ quoted o ++ lit " from " ++ quoted b.
Proof.
  unfold three, quoted, shown. repeat rewrite <- app_assoc.
  change (lit """ or """) with (lit """" ++ lit " or " ++ lit """").
  change (lit """ from """) with (lit """" ++ lit " from " ++ lit """").
  repeat rewrite <- app_assoc. reflexivity.
Qed.

Lemma dget_ddel_other {V} (d : list (pystr * V)) k k' : k' <> k -> dget streq (ddel streq d k) k' = dget streq d k'.
Proof.
  intro N. induction d as [|[q v] d IH]; [reflexivity|]. cbn [ddel]. destruct (streq_spec k q) as [->|Nq].
  - cbn [dget]. destruct (streq_spec k' q); congruence.
  - cbn [dget]. now rewrite IH.
Qed.
Lemma attr_notes_spec oattrs battrs orig : forall keys attrs, NoDup keys ->
  (forall k, In k keys -> dget streq attrs k = dget streq orig k) ->
  (forall k, In k keys -> dget streq orig k <> None) ->
  attr_notes keys oattrs battrs attrs =
  flat_map (fun k => match dget streq orig k, dget streq oattrs k with
                     | Some tv, Some ov =>
                         if opt_dec (Some tv) (Some ov) then []
                         else if opt_dec (dget streq battrs k) (Some tv) then []
                         else [lit "Attribute (" ++ k ++ lit ") clash: " ++ quoted (Some tv) ++ lit " or " ++ quoted (Some ov)
                               ++ lit " from " ++ quoted (dget streq battrs k)]
                     | _, _ => []
                     end) keys.
Proof.
  induction keys as [|k keys IH]; intros attrs N H HS; [reflexivity|].
  inversion N as [|? ? N1 N2]; subst. cbn [attr_notes flat_map].
  match goal with |- _ = _ ++ flat_map ?f keys => set (FF := f) in * end.
  assert (forall attrs', (forall k', k' <> k -> dget streq attrs' k' = dget streq attrs k') ->
            attr_notes keys oattrs battrs attrs' = flat_map FF keys) as IH'.
  { intros attrs' Ha. apply IH; [assumption| |intros k' Hk'; apply HS; now right].
    intros k' Hk'. rewrite Ha by congruence. apply H. now right. }
  rewrite H by now left. destruct (dget streq orig k) as [tv|] eqn:Et; [|exfalso; exact (HS k (or_introl eq_refl) Et)].
  destruct (dget streq oattrs k) as [ov|].
  - destruct (opteq_spec (Some tv) (Some ov)) as [E|E]; destruct (opt_dec (Some tv) (Some ov)) as [E'|E']; try congruence; cbn [negb app].
    + rewrite Bool.andb_false_r. apply IH'. auto.
    + rewrite Bool.andb_true_r. destruct (dget streq battrs k) as [bv|] eqn:Eb.
      * destruct (opteq_spec (Some bv) (Some tv)) as [F|F]; destruct (opt_dec (Some bv) (Some tv)) as [F'|F']; try congruence.
        -- cbn [app]. apply IH'. intros k' Hk'. apply (dget_dset_other _ streq_spec). congruence.
        -- cbn [app]. f_equal; [|apply IH'; auto]. unfold attr_note. rewrite three_quoted. reflexivity.
      * destruct (opt_dec None (Some tv)); [discriminate|]. cbn [app]. f_equal; [|apply IH'; auto].
        unfold attr_note. rewrite three_quoted. reflexivity.
  - cbn [app]. destruct (dmem streq battrs k); apply IH'; auto.
    intros k' Hk'. now apply dget_ddel_other.
Qed.
Lemma element_notes_spec t o b : NoDup (dkeys (lattrs t)) -> element_notes t o b = notes_of t o b.
Proof.
  intro N. unfold element_notes, notes_of. f_equal.
  - unfold text_notes. rewrite !opteq_dec. unfold text_note. now rewrite three_quoted.
  - rewrite (attr_notes_spec (lattrs o) (lattrs b) (lattrs t)); [|assumption|reflexivity|].
    2:{ intros k Hk E. unfold dkeys in Hk. apply in_map_iff in Hk as ((k' & v) & <- & Hk). cbn [fst] in E.
        rewrite (dget_NoDup_In _ streq_spec _ _ _ N Hk) in E. discriminate. }
    unfold dkeys. rewrite flat_map_concat_map, map_map, <- flat_map_concat_map.
    assert (forall l, (forall x, In x l -> In x (lattrs t)) -> forall f g,
              (forall kv : pystr * pystr, In kv (lattrs t) -> f kv = g kv) -> flat_map f l = flat_map g l :> list pystr) as FE.
    { intros l Hl f g Hf. induction l as [|x l IH]; [reflexivity|]. cbn [flat_map]. rewrite (Hf x) by (apply Hl; now left).
      f_equal. apply IH. intros. apply Hl. now right. }
    apply FE; [auto|]. intros [k tv] Hin. cbn [fst]. rewrite (dget_NoDup_In _ streq_spec _ _ _ N Hin). reflexivity.
Qed.

(** the loop over the children as a function of its own *)
Definition kid_notes (t : lnode) (mm : aligned) : list (list Z * pystr) :=
  match mm with
  | (Some o, Some b) =>
      if (negb (Z.eqb (lch o) (lch t)) && negb (Z.eqb (lch b) (lch t)) && negb (Z.eqb (lch b) (lch o)))%bool
      then map (fun pn => (lah t :: fst pn, snd pn)) (merge_notes t o b)
      else []
  | _ => []
  end.
Lemma merge_notes_eq t o b :
  merge_notes t o b =
  flat_map (fun tm => kid_notes (fst tm) (snd tm)) (combine (lkids t) (fst (align (lkids t) (Some o) (Some b))))
  ++ map (fun c => ([], c)) (element_notes t o b).
Proof.
  destruct t as [g a x h c al kids]. cbn [merge_notes lkids]. f_equal.
  generalize (fst (align kids (Some o) (Some b))). induction kids as [|k kids IH]; intros [|[mo mb] ms]; try reflexivity.
  cbn [combine flat_map fst snd kid_notes]. rewrite <- IH. now destruct mo, mb.
Qed.
Lemma notes_at_app p l l' : notes_at p (l ++ l') = notes_at p l ++ notes_at p l'.
Proof. apply flat_map_app. Qed.
Lemma notes_at_under p k l : notes_at p (map (fun pn => (k :: fst pn, snd pn)) l) =
  match p with [] => [] | k' :: p' => if Z.eq_dec k k' then notes_at p' l else [] end.
Proof.
  unfold notes_at. rewrite flat_map_concat_map, map_map, <- flat_map_concat_map. destruct p as [|k' p'].
  - induction l as [|x l IH]; [reflexivity|]. cbn [flat_map fst]. destruct (list_eq_dec _ _ _); [discriminate|]. exact IH.
  - destruct (Z.eq_dec k k') as [<-|N].
    + apply flat_map_ext. intros [q n]. cbn [fst snd]. destruct (list_eq_dec _ (k :: q) _), (list_eq_dec _ q _); congruence.
    + induction l as [|x l IH]; [reflexivity|]. cbn [flat_map fst]. destruct (list_eq_dec _ _ _); [congruence|]. exact IH.
Qed.
Lemma notes_at_here p l : notes_at p (map (fun c => ([], c)) l) = match p with [] => l | _ => [] end.
Proof.
  unfold notes_at. induction l as [|x l IH]; [now destruct p|]. cbn [map flat_map fst snd].
  destruct p; destruct (list_eq_dec _ _ _); try congruence; cbn [app]; [now f_equal|]. exact IH.
Qed.
Lemma find_key_hd k x l : find_key k (x :: l) = if Z.eqb (lah x) k then Some x else find_key k l.
Proof. reflexivity. Qed.

Section Notes.
  Variable keyof : Z -> Z.
  Lemma wf_kids n : well_formed keyof n -> nodup (lkids n) /\ (forall x, In x (lkids n) -> lah x = keyof (lch x)).
  Proof.
    intros (H1 & H2 & _). split; [now destruct H1|]. intros x Hx. destruct H2 as [_ H2]. now destruct (H2 x Hx).
  Qed.
  (** C99: where notes are left and what they say *)
  Theorem C99_notes t : forall o b p, well_formed keyof t -> well_formed keyof o -> well_formed keyof b ->
    notes_at p (merge_notes t o b) =
    match contested t o b p with Some (t', o', b') => notes_of t' o' b' | None => [] end.
  Proof.
    induction t as [g a x h c al kids IHk] using lnode_kids_ind. intros o b p Wt Wo Wb.
    rewrite merge_notes_eq, notes_at_app, notes_at_here.
    rewrite element_notes_spec by (destruct Wt as (_ & _ & [W _]); exact W).
    destruct (wf_kids _ Wt) as [Nt Ht]. destruct (wf_kids _ Wo) as [No Ho]. destruct (wf_kids _ Wb) as [Nb Hb].
    cbn [lkids] in *. rewrite (align_spec keyof kids (Some o) (Some b) Nt Ht No Ho Nb Hb). cbn [fst kids_of].
    rewrite combine_map. set (n := LNode g a x h c al kids) in *.
    assert (forall ks, (forall y, In y ks -> In y kids) -> nodup ks ->
      notes_at p (flat_map (fun tm => kid_notes (fst tm) (snd tm))
        (map (fun t => (t, (find_key (lah t) (lkids o), base_for t (find_key (lah t) (lkids o)) (find_key (lah t) (lkids b))))) ks))
      = match p with
        | [] => []
        | k :: p' => match find_key k ks with
                     | None => []
                     | Some t' =>
                         match find_key k (lkids o), find_key k (lkids b) with
                         | Some o', Some b' =>
                             if Z.eq_dec (lch t') (lch o') then [] else if Z.eq_dec (lch t') (lch b') then []
                             else if Z.eq_dec (lch o') (lch b') then [] else notes_at p' (merge_notes t' o' b')
                         | _, _ => []
                         end
                     end
        end) as K.
    { induction ks as [|t' ks IH]; intros Hs N; [now destruct p|]. cbn [map flat_map fst snd]. rewrite notes_at_app.
      unfold nodup in N. cbn [map] in N. inversion N as [|? ? N1 N2]; subst. rewrite IH; [|intros; apply Hs; now right|assumption].
      clear IH. destruct p as [|k p'].
      - unfold kid_notes. destruct (find_key (lah t') (lkids o)) as [o'|]; [|reflexivity].
        destruct (base_for _ _ _); [|reflexivity]. destruct (_ && _)%bool; [|reflexivity]. now rewrite notes_at_under.
      - rewrite find_key_hd. destruct (Z.eqb_spec (lah t') k) as [<-|Nk].
        + assert (find_key (lah t') ks = None) as -> by (now apply find_key_none). rewrite app_nil_r. unfold kid_notes.
          destruct (find_key (lah t') (lkids o)) as [o'|]; [|reflexivity].
          destruct (find_key (lah t') (lkids b)) as [b'|]; [|reflexivity]. cbn [base_for].
          destruct (Z.eq_dec (lch t') (lch o')) as [E|E].
          { destruct (Z.eqb_spec (lch o') (lch t')); [|congruence]. destruct (Z.eqb (lch b') (lch t')); reflexivity. }
          destruct (Z.eqb_spec (lch o') (lch t')); [congruence|]. cbn [negb andb].
          destruct (Z.eqb_spec (lch b') (lch t')), (Z.eq_dec (lch t') (lch b')); try congruence; try reflexivity. cbn [negb andb].
          destruct (Z.eqb_spec (lch b') (lch o')), (Z.eq_dec (lch o') (lch b')); try congruence; try reflexivity. cbn [negb].
          rewrite notes_at_under. destruct (Z.eq_dec (lah t') (lah t')); [reflexivity|contradiction].
        + match goal with |- ?L ++ ?R = ?R' => assert (L = []) as -> end; [|reflexivity].
          unfold kid_notes. destruct (find_key (lah t') (lkids o)) as [o'|]; [|reflexivity].
          destruct (base_for _ _ _); [|reflexivity]. destruct (_ && _)%bool; [|reflexivity]. rewrite notes_at_under.
          destruct (Z.eq_dec (lah t') k); [contradiction|reflexivity]. }
    rewrite K by auto. destruct p as [|k p']; [reflexivity|]. rewrite app_nil_r. cbn [contested lkids n].
    destruct (find_key k kids) as [t'|] eqn:Et; [|reflexivity].
    destruct (find_key k (lkids o)) as [o'|] eqn:Eo; [|reflexivity].
    destruct (find_key k (lkids b)) as [b'|] eqn:Eb; [|reflexivity].
    clear K. destruct (Z.eq_dec (lch t') (lch o')); [reflexivity|]. destruct (Z.eq_dec (lch t') (lch b')); [reflexivity|].
    destruct (Z.eq_dec (lch o') (lch b')); [reflexivity|].
    apply find_key_in in Et as [Et _]. apply find_key_in in Eo as [Eo _]. apply find_key_in in Eb as [Eb _].
    rewrite Forall_forall in IHk. apply (IHk t' Et); [apply (wf_kid keyof n t' Wt Et)|apply (wf_kid keyof o o' Wo Eo)|apply (wf_kid keyof b b' Wb Eb)].
  Qed.
End Notes.

Lemma in_notes_at keyof t o b c : well_formed keyof t -> well_formed keyof o -> well_formed keyof b ->
  In c (notes_of t o b) -> In ([], c) (merge_notes t o b).
Proof.
  intros Wt Wo Wb H. pose proof (C99_notes keyof t o b [] Wt Wo Wb) as E. cbn [contested] in E. rewrite <- E in H.
  unfold notes_at in H. apply in_flat_map in H as ([q n] & Hin & H). cbn [fst snd] in H.
  destruct (list_eq_dec _ _ _) as [->|]; [|contradiction]. destruct H as [->|[]]. exact Hin.
Qed.
(** "a note means that the two sides want different things" is false: the same change on both
    sides is noted *)
Theorem C99_same_change_refuted keyof t o b :
  well_formed keyof t -> well_formed keyof o -> well_formed keyof b ->
  ltext t = ltext o -> ltext t <> ltext b ->
  In ([], lit "Clash: " ++ quoted (ltext t) ++ lit " or " ++ quoted (ltext t) ++ lit " from " ++ quoted (ltext b))
     (merge_notes t o b).
Proof.
  intros Wt Wo Wb E N. apply (in_notes_at keyof); try assumption. unfold notes_of. apply in_or_app. left. rewrite <- E.
  destruct (opt_dec _ _); [contradiction|]. now left.
Qed.
(** and so is an attribute that only this side changed *)
Theorem C99_one_sided_refuted keyof t o b k tv ov :
  well_formed keyof t -> well_formed keyof o -> well_formed keyof b ->
  lget t k = Some tv -> lget o k = Some ov -> lget b k = Some ov -> tv <> ov ->
  In ([], lit "Attribute (" ++ k ++ lit ") clash: " ++ quoted (Some tv) ++ lit " or " ++ quoted (Some ov)
          ++ lit " from " ++ quoted (Some ov))
     (merge_notes t o b).
Proof.
  intros Wt Wo Wb Et Eo Eb N. apply (in_notes_at keyof); try assumption. unfold notes_of. apply in_or_app. right.
  apply in_flat_map. exists (k, tv). split; [exact (dget_In _ streq_spec _ _ _ Et)|]. cbv beta iota. rewrite Eo, Eb.
  destruct (opt_dec (Some tv) (Some ov)); [congruence|]. destruct (opt_dec (Some ov) (Some tv)); [congruence|]. now left.
Qed.

(** * Specification: comments in XML *)

(** [s] has two hyphens in a row *)
Definition hyphens (s : pystr) : Prop := exists a b, s = a ++ [45; 45]%N ++ b.
(** production 15 of XML 1.0: the text of a comment has no two hyphens and does not end in one *)
Definition comment_text (c : pystr) : Prop := ~ hyphens (c ++ [45%N]).
(** a document that goes on with [s] goes on with the comment [c] and then [rest] *)
Definition comment_then (s c rest : pystr) : Prop :=
  comment_text c /\ s = lit "<!--" ++ c ++ lit "-->" ++ rest.

(** * Proofs: comments in XML *)
Lemma comment_then_unique s c rest c' rest' : comment_then s c rest -> comment_then s c' rest' -> c' = c /\ rest' = rest.
Proof.
  intros [K E] [K' E']. rewrite E in E'. apply app_inv_head in E'. clear E s.
  assert (forall c c' rest rest', comment_text c -> c ++ lit "-->" ++ rest = c' ++ lit "-->" ++ rest' ->
            exists x, c' = c ++ x) as Q.
  { clear. intros c c' rest rest' K E. revert c' E. induction c as [|a c IH]; intros c' E; [now exists c'|].
    destruct c' as [|a' c'].
    - exfalso. cbn in E. injection E as -> E. destruct c as [|a c]; cbn in E.
      + injection E as E. apply K. now exists [], [].
      + injection E as -> _. apply K. exists [], (c ++ [45%N]). reflexivity.
    - cbn [app] in E. injection E as <- E. destruct (IH) with (c' := c') as [x ->]; [|assumption|now exists x].
      intros (p & q & H). apply K. exists (a :: p), q. cbn [app]. now rewrite H. }
  destruct (Q _ _ _ _ K E') as [x ->]. symmetry in E'. destruct (Q _ _ _ _ K' E') as [y Ey].
  rewrite <- app_assoc in Ey. rewrite <- (app_nil_r c) in Ey at 1. apply app_inv_head in Ey. symmetry in Ey. apply app_eq_nil in Ey as [-> _].
  rewrite !app_nil_r in *. split; [reflexivity|]. apply app_inv_head in E'. now apply app_inv_head in E'.
Qed.
Lemma hyphens_dec s : hyphens s \/ ~ hyphens s.
Proof.
  induction s as [|a s IH].
  - right. intros (p & q & E). destruct p; discriminate.
  - destruct IH as [(p & q & ->)|N]; [left; now exists (a :: p), q|].
    destruct s as [|b s].
    + right. intros (p & q & E). destruct p as [|? p]; [discriminate|]. injection E as _ E. destruct p; discriminate.
    + destruct (N.eq_dec a 45) as [->|Na], (N.eq_dec b 45) as [->|Nb]; [left; now exists [], s| | |];
        (right; intros (p & q & E); destruct p as [|a' p]; [injection E; congruence|];
         injection E as _ E; apply N; now exists p, q).
Qed.

(** C99: a comment that may stand in a document is read as it was written *)
Theorem C99_comment_read_back indent c :
  comment_text c ->
  forall rest c' rest', comment_then (skipn (length indent) (comment_line indent c) ++ rest) c' rest' <-> c' = c /\ rest' = nl ++ rest.
Proof.
  intros K rest c' rest'. unfold comment_line. rewrite skipn_app, skipn_all, Nat.sub_diag. cbn [skipn app].
  assert (comment_then ((lit "<!--" ++ c ++ lit "-->" ++ nl) ++ rest) c (nl ++ rest)) as H.
  { split; [assumption|]. now rewrite <- !app_assoc. }
  split; [intro H'; exact (comment_then_unique _ _ _ _ _ H H')|]. intros [-> ->]. exact H.
Qed.
(** any other comment spoils the document: what is written is not a comment, or it is one that
    ends early, and the remainder is taken for part of the document *)
Theorem C99_comment_refuted indent c rest :
  ~ comment_text c ->
  forall c' rest', comment_then (skipn (length indent) (comment_line indent c) ++ rest) c' rest' ->
    exists x, c' ++ lit "-->" ++ x = c ++ lit "-->" /\ x <> [] /\ rest' = x ++ nl ++ rest.
Proof.
  intros K c' rest' [K' E]. unfold comment_line in E. rewrite skipn_app, skipn_all, Nat.sub_diag in E. cbn [skipn app] in E.
  rewrite <- !app_assoc in E. apply app_inv_head in E.
  assert (forall c c', ~ hyphens (c' ++ [45%N]) -> hyphens (c ++ [45%N]) -> forall r r', c ++ lit "-->" ++ r = c' ++ lit "-->" ++ r' ->
            exists x, c' ++ lit "-->" ++ x = c ++ lit "-->" /\ x <> [] /\ r' = x ++ r) as Q.
  { clear. induction c as [|a c IH]; intros c' K' H r r' E.
    - exfalso. destruct H as (p & q & H). destruct p as [|? [|? p]]; discriminate.
    - destruct c' as [|a' c'].
      + cbn in E. injection E as -> E. destruct c as [|a c]; cbn in E; [discriminate|]. injection E as -> E.
        destruct c as [|a c]; cbn in E; [discriminate|]. injection E as -> E.
        exists (c ++ lit "-->"). split; [reflexivity|]. split; [destruct c; discriminate|]. rewrite <- E, <- app_assoc. reflexivity.
      + cbn [app] in E. injection E as <- E.
        destruct (IH c') with (r := r) (r' := r') as (x & Ex & Nx & Er); [| |exact E|].
        * intros (p & q & H'). apply K'. exists (a :: p), q. cbn [app]. now rewrite H'.
        * destruct (hyphens_dec (c ++ [45%N])) as [|N]; [assumption|]. exfalso.
          destruct H as (p & q & H). destruct p as [|? p]; cbn [app] in H.
          -- injection H as -> H. destruct c as [|b c]; cbn [app] in H, E.
             ++ injection H as H. destruct c' as [|b' c']; cbn in E.
                ** apply K'. now exists [], [].
                ** injection E as <- E. apply K'. exists [], (c' ++ [45%N]). reflexivity.
             ++ injection H as -> H. destruct c' as [|b' c']; cbn in E.
                ** apply K'. now exists [], [].
                ** injection E as <- E. apply K'. exists [], (c' ++ [45%N]). reflexivity.
          -- injection H as _ H. apply N. now exists p, q.
        * exists x. cbn [app]. rewrite Ex. auto. }
  unfold comment_text in K, K'. destruct (hyphens_dec (c ++ [45%N])) as [H|]; [|contradiction].
  destruct (Q c c' K' H (nl ++ rest) rest' E) as (x & Ex & Nx & Er). now exists x.
Qed.

Lemma hyphens_sep a x b : x <> 45%N -> (hyphens (a ++ x :: b) <-> hyphens a \/ hyphens b).
Proof.
  intro Nx. split.
  - induction a as [|y a IH]; intros (p & q & E).
    + destruct p as [|? p]; cbn in E; [injection E; congruence|]. injection E as _ ->. right. now exists p, q.
    + destruct p as [|z p].
      * cbn in E. injection E as -> E. destruct a as [|y a]; cbn in E; [injection E; congruence|]. injection E as -> _.
        left. now exists [], a.
      * cbn [app] in E. injection E as <- E. destruct IH as [(p' & q' & ->)|H]; [now exists p, q| |now right].
        left. now exists (y :: p'), q'.
  - intros [(p & q & ->)|(p & q & ->)].
    + exists p, (q ++ x :: b). now rewrite <- !app_assoc.
    + exists (a ++ x :: p), q. now rewrite <- app_assoc.
Qed.
Lemma hyphens_lit s a : existsb (N.eqb 45) s = false -> (hyphens (s ++ a) <-> hyphens a).
Proof.
  induction s as [|c s IH]; intro H; [reflexivity|]. cbn [existsb] in H. apply Bool.orb_false_iff in H as [H1 H2].
  apply N.eqb_neq in H1. rewrite <- (IH H2). change ((c :: s) ++ a) with ([] ++ c :: (s ++ a)). rewrite hyphens_sep by congruence.
  split; [|now right]. intros [(p & q & E)|H]; [destruct p; discriminate|assumption].
Qed.
Lemma hyphens_quoted o rest : hyphens (quoted o ++ rest) <-> hyphens (match o with Some s => s | None => [] end) \/ hyphens rest.
Proof.
  unfold quoted. rewrite <- !app_assoc. rewrite hyphens_lit by reflexivity.
  change (lit """" ++ rest) with (34%N :: rest). rewrite hyphens_sep by discriminate. destruct o as [s|]; [reflexivity|].
  assert (forall r, hyphens r <-> hyphens ([] ++ 34%N :: r) ) as Q by (intro r; rewrite hyphens_sep by discriminate; firstorder; destruct x; discriminate).
  split; intros [H|H]; try (right; exact H); exfalso; destruct H as (p & q & E).
  - repeat (destruct p as [|? p]; try discriminate).
  - destruct p; discriminate.
Qed.
(** C99: the note about a text may stand in a document exactly if none of the three texts has two
    hyphens in a row *)
Theorem C99_note_writable t o b :
  comment_text (lit "Clash: " ++ quoted t ++ lit " or " ++ quoted o ++ lit " from " ++ quoted b) <->
  forall s, t = Some s \/ o = Some s \/ b = Some s -> ~ hyphens s.
Proof.
  unfold comment_text. rewrite <- !app_assoc. rewrite hyphens_lit by reflexivity. rewrite hyphens_quoted.
  rewrite hyphens_lit by reflexivity. rewrite hyphens_quoted. rewrite hyphens_lit by reflexivity. rewrite hyphens_quoted.
  assert (~ hyphens [45%N]) as N1. { intros (p & q & E). destruct p as [|? [|? p]]; discriminate. }
  assert (forall o, hyphens (match o with Some s => s | None => [] end) <-> exists s, o = Some s /\ hyphens s) as Q.
  { intros [s|]; split.
    - intro H. now exists s.
    - intros (s' & E & H). congruence.
    - intros (p & q & E). destruct p; discriminate.
    - intros (s' & E & H). discriminate. }
  rewrite !Q. split.
  - intros H s Hs Hh. apply H. destruct Hs as [->|[->| ->]]; [left|right; left|right; right; left]; eauto.
  - intros H [(s & -> & Hs)|[(s & -> & Hs)|[(s & -> & Hs)|Hs]]]; [| | |contradiction]; (eapply H; [|exact Hs]); auto.
Qed.

(** * Specification: comments of a whole document *)
Definition before (n : cnode) : list pystr := let '(CNode _ _ _ c _ _) := n in c.
Definition after (n : cnode) : list pystr := let '(CNode _ _ _ _ c _) := n in c.
Section Written.
  (** the text that is read for an element, whatever it is *)
  Variable txt : cnode -> option pystr.
  Definition comment_el (c : pystr) : xnode := XNode comment_tag [(lit "text", c)] None None [].
  (** what a parser finds in the document that is written for an element *)
  Fixpoint found (n : cnode) : list xnode :=
    let '(CNode t a _ b c ks) := n in
    map comment_el b ++ [XNode t a (txt n) None (flat_map found ks)] ++ map comment_el c.
  Definition found_root (n : cnode) : xnode :=
    let '(CNode t a _ b c ks) := n in XNode t a (txt n) None (flat_map found ks).
End Written.
(** the same elements with the same comments, apart from text *)
Fixpoint textless (n : cnode) : cnode :=
  let '(CNode t a _ b c ks) := n in CNode t a None b c (map textless ks).
(** comments stand before elements wherever they can *)
Inductive settled_el : cnode -> Prop :=
| settled_intro t a x b c ks : Forall settled_el ks -> t <> comment_tag ->
    (forall l k r, ks = l ++ k :: r -> r <> [] -> after k = []) -> settled_el (CNode t a x b c ks).

(** * Proofs *)
Lemma cnode_kids_ind (P : cnode -> Prop) :
  (forall t a x b c ks, Forall P ks -> P (CNode t a x b c ks)) -> forall n, P n.
Proof.
  intro H. fix IH 1. intros [t a x b c ks]. apply H. induction ks as [|n k IHk]; constructor; auto.
Qed.
Lemma kids_loop_comments up cs ks : forall hd acc p,
  kids_loop up (map comment_el cs ++ ks) hd acc p = kids_loop up ks hd acc (p ++ cs).
Proof.
  induction cs as [|c cs IH]; intros hd acc p; [now rewrite app_nil_r|]. cbn [map app kids_loop]. unfold comment_el at 1 2.
  rewrite loop_el_eq. rewrite streq_refl. cbn [bind xtag]. rewrite streq_refl.
  match goal with |- context[dget streq [(lit "text", c)] (lit "text")] =>
    assert (dget streq [(lit "text", c)] (lit "text") = Some c) as -> by reflexivity end.
  rewrite IH, <- app_assoc. reflexivity.
Qed.
Lemma textless_set_after c n : textless (set_after c n) = set_after c (textless n).
Proof. now destruct n. Qed.
Lemma upd_last_map {A B} (f : A -> A) (g : B -> B) (h : A -> B) l :
  (forall x, h (f x) = g (h x)) -> map h (upd_last f l) = upd_last g (map h l).
Proof.
  intro E. induction l as [|x l IH]; [reflexivity|]. destruct l as [|y l]; cbn [upd_last map] in *; [now rewrite E|]. f_equal. exact IH.
Qed.
Lemma upd_last_snoc {A} (f : A -> A) l x : upd_last f (l ++ [x]) = l ++ [f x].
Proof.
  induction l as [|y l IH]; [reflexivity|]. cbn [app upd_last]. destruct (l ++ [x]) eqn:E; [destruct l; discriminate|].
  now rewrite IH.
Qed.

Section ReadBack.
  Variable up : bool.
  Variable txt : cnode -> option pystr.
  Hypothesis plain : forall n, txt n <> Some uparrow3.

  Definition loops_to (n : cnode) : Prop :=
    forall top, exists r, loop_el up top (found_root txt n) (before n) = Ok (Some r, []) /\
      textless r = textless (set_after [] n).
  Lemma found_split n : found txt n = map comment_el (before n) ++ [found_root txt n] ++ map comment_el (after n).
  Proof. now destruct n. Qed.
  Lemma found_root_tag n : xtag (found_root txt n) = ctag n.
  Proof. now destruct n. Qed.
  (** the children: all comments but those after the last are taken up *)
  Lemma kids_read ks : Forall loops_to ks -> Forall (fun k => ctag k <> comment_tag) ks ->
    (forall l k r, ks = l ++ k :: r -> r <> [] -> after k = []) ->
    forall acc, exists rs, kids_loop up (flat_map (found txt) ks) false acc [] =
        Ok (acc ++ rs, false, match rev ks with k :: _ => after k | [] => [] end) /\
      map textless rs = map (fun k => textless (set_after [] k)) ks.
  Proof.
    induction ks as [|k ks IH]; intros HL HT HS acc.
    - exists []. now rewrite app_nil_r.
    - inversion HL as [|? ? H1 H2]; inversion HT as [|? ? T1 T2]; subst. cbn [flat_map]. rewrite found_split, <- !app_assoc.
      rewrite kids_loop_comments. cbn [app kids_loop]. destruct (H1 false) as (r & Er & Et). rewrite Er. cbn [bind].
      rewrite kids_loop_comments. cbn [app].
      replace (if up then false else false) with false by (destruct up; reflexivity).
      destruct ks as [|k2 ks].
      + exists [r]. cbn. rewrite Et. auto.
      + rewrite (HS [] k (k2 :: ks) eq_refl) by discriminate. cbn [app].
        destruct (IH H2 T2) with (acc := acc ++ [r]) as (rs & Ers & Ets).
        { intros l k' r' E Nr. apply (HS (k :: l) k' r'); [cbn [app]; now rewrite E|assumption]. }
        exists (r :: rs). split; [|cbn [map]; now rewrite Et, Ets]. rewrite Ers. f_equal. f_equal; [f_equal; now rewrite <- app_assoc|].
        cbn [rev]. destruct (rev ks ++ [k2]) eqn:E; [destruct (rev ks); discriminate|]. reflexivity.
  Qed.
  Lemma settled_loops n : settled_el n -> loops_to n.
  Proof.
    induction n as [t a x b c ks IH] using cnode_kids_ind. intro S. inversion S as [? ? ? ? ? ? S1 S2 S3]; subst. intro top.
    unfold found_root. rewrite loop_el_eq. destruct (streq_spec t comment_tag) as [|_]; [contradiction|].
    destruct (kids_read ks) with (acc := @nil cnode) as (rs & Ers & Ets).
    { rewrite Forall_forall in *. auto. }
    { rewrite Forall_forall in *. intros k Hk. destruct (S1 k Hk). assumption. }
    { assumption. }
    rewrite Ers. cbn [bind app].
    set (pend := match rev ks with k :: _ => after k | [] => [] end).
    assert (exists rs', (match pend, rs with | _ :: _, _ :: _ => (upd_last (set_after pend) rs, []) | _, _ => (rs, pend) end) = (rs', [])
              /\ map textless rs' = map textless ks) as (rs' & E & E').
    { destruct ks as [|k0 ks0] using rev_ind.
      - destruct rs; [|discriminate]. exists []. split; reflexivity.
      - clear IHks0. subst pend. rewrite rev_app_distr in *. cbn [rev app] in *.
        rewrite map_app in Ets. cbn [map] in Ets.
        assert (map (fun k => textless (set_after [] k)) ks0 = map textless ks0) as EK.
        { apply map_ext_in. intros k Hk. apply in_split in Hk as (l & r & ->).
          assert (after k = []) as Ea. { apply (S3 l k (r ++ [k0])); [now rewrite <- app_assoc|]. destruct r; discriminate. }
          destruct k; cbn in *. now subst. }
        rewrite EK in Ets. apply map_eq_app in Ets as (r1 & r2 & -> & Er1 & Er2).
        destruct r2 as [|r2 [|? ?]]; try discriminate. cbn [map] in Er2. injection Er2 as Er2.
        exists (r1 ++ [set_after (after k0) r2]). split.
        + destruct (after k0) as [|c0 cs] eqn:Ea.
          * f_equal. f_equal. f_equal. assert (after (textless r2) = []) as Q by (rewrite Er2; now destruct k0).
            destruct r2; cbn in *. now subst.
          * destruct (r1 ++ [r2]) eqn:Er; [destruct r1; discriminate|]. rewrite <- Er, upd_last_snoc. reflexivity.
        + rewrite !map_app. cbn [map]. rewrite Er1, textless_set_after, Er2. f_equal. f_equal. now destruct k0. }
    rewrite E. cbn iota beta.
    assert (match txt (CNode t a x b c ks) with Some t0 => streq t0 uparrow3 | None => false end = false) as ->.
    { pose proof (plain (CNode t a x b c ks)) as P. destruct (txt _) as [s|]; [|reflexivity]. destruct (streq_spec s uparrow3); congruence. }
    cbn [orb andb]. rewrite Bool.andb_false_r. cbn [before]. eexists. split; [reflexivity|]. cbn [textless set_after]. now rewrite E'.
  Qed.
End ReadBack.

(** C99: the comments of a document are read as they were written *)
Theorem C99_comments_read_back up txt n :
  (forall x, txt x <> Some uparrow3) -> settled_el n -> after n = [] ->
  exists r, read_loop up (found_root txt n) (before n) = Ok r /\ textless r = textless n.
Proof.
  intros P S A. destruct (settled_loops up txt P n S true) as (r & E & T). exists r. unfold read_loop. rewrite E. cbn [bind].
  split; [reflexivity|]. rewrite T. destruct n; cbn in *. now subst.
Qed.

Lemma loop_settled up n : forall top p r q, loop_el up top n p = Ok (Some r, q) -> settled_el r /\ after r = [].
Proof.
  induction n as [t a x y k IH] using xnode_ind'. intros top p r q E. rewrite loop_el_eq in E.
  destruct (streq_spec t comment_tag) as [|Nt]; [discriminate|].
  assert (forall ks, Forall (fun n => forall top p r q, loop_el up top n p = Ok (Some r, q) -> settled_el r /\ after r = []) ks ->
            forall hd acc pe ks' hd' pe', kids_loop up ks hd acc pe = Ok (ks', hd', pe') ->
            Forall (fun r => settled_el r /\ after r = []) acc -> Forall (fun r => settled_el r /\ after r = []) ks') as K.
  { clear. induction ks as [|k ks IHk]; intros HF hd acc pe ks' hd' pe' E HA; cbn [kids_loop] in E.
    - injection E as <- _ _. assumption.
    - inversion HF as [|? ? H1 H2]; subst. destruct (loop_el up false k pe) as [[[c|] p]|] eqn:Ek; cbn [bind] in E; [| |discriminate].
      + eapply IHk; [assumption|exact E|]. apply Forall_app. split; [assumption|]. constructor; [|constructor]. eapply H1. exact Ek.
      + eapply IHk; [assumption|exact E|assumption]. }
  destruct (kids_loop up k false [] []) as [[[ks hd] pe]|] eqn:Ek; cbn [bind] in E; [|discriminate].
  apply K in Ek; [|assumption|constructor].
  assert (Forall settled_el (fst (match pe, ks with _ :: _, _ :: _ => (upd_last (set_after pe) ks, []) | _, _ => (ks, pe) end)) /\
          forall l z r, fst (match pe, ks with _ :: _, _ :: _ => (upd_last (set_after pe) ks, []) | _, _ => (ks, pe) end) = l ++ z :: r ->
            r <> [] -> after z = []) as [KS KA].
  { assert (Forall settled_el ks /\ forall l z r, ks = l ++ z :: r -> after z = []) as [B1 B2].
    { split; [eapply Forall_impl; [|exact Ek]; now intros ? []|]. intros l z r0 ->. apply Forall_app in Ek as [_ Ek].
      inversion Ek as [|? ? [_ H] _]; assumption. }
    destruct pe as [|c0 pe]; cbn [fst]; [split; [assumption|intros; eapply B2; eassumption]|].
    destruct ks as [|k1 ks1] using rev_ind; [cbn [fst]; split; [assumption|intros; eapply B2; eassumption]|]. clear IHks1.
    assert (match ks1 ++ [k1] with [] => (ks1 ++ [k1], c0 :: pe) | _ :: _ => (upd_last (set_after (c0 :: pe)) (ks1 ++ [k1]), []) end
            = (ks1 ++ [set_after (c0 :: pe) k1], [])) as Q.
    { rewrite upd_last_snoc. destruct (ks1 ++ [k1]) eqn:E1; [destruct ks1; discriminate|]. reflexivity. }
    match goal with |- Forall _ (fst ?X) /\ _ => assert (X = (ks1 ++ [set_after (c0 :: pe) k1], [])) as -> end.
    { rewrite <- Q. destruct (ks1 ++ [k1]); reflexivity. }
    cbn [fst]. apply Forall_app in B1 as [B1 B3]. split.
    - apply Forall_app. split; [assumption|]. constructor; [|constructor]. inversion B3 as [|? ? B4 _]; subst.
      inversion B4; subst. cbn [set_after]. constructor; assumption.
    - intros l z r0 E0 Nr. destruct r0 as [|z1 r1] using rev_ind; [contradiction|]. clear IHr1.
      change (l ++ z :: r1 ++ [z1]) with (l ++ (z :: r1) ++ [z1]) in E0. rewrite app_assoc in E0.
      apply app_inj_tail in E0 as [-> _]. apply (B2 l z (r1 ++ [k1])). now rewrite <- app_assoc. }
  destruct (match pe, ks with _ :: _, _ :: _ => (upd_last (set_after pe) ks, []) | _, _ => (ks, pe) end) as [ks2 pe2].
  cbn [fst] in *. destruct (_ && _)%bool; [destruct top; discriminate|]. injection E as <- _. split; [|reflexivity]. now constructor.
Qed.
(** C99: whatever has been read can be written and read again, any number of times, without a
    comment changing its place *)
Theorem C99_comments_stable up txt doc p n :
  (forall x, txt x <> Some uparrow3) -> read_loop up doc p = Ok n ->
  exists r, read_loop up (found_root txt n) (before n) = Ok r /\ textless r = textless n.
Proof.
  intros P E. unfold read_loop in E. destruct (loop_el up true doc p) as [[[c|] q]|] eqn:El; cbn [bind] in E; try discriminate.
  injection E as <-. apply loop_settled in El as [S A]. now apply C99_comments_read_back.
Qed.
(** a comment after an element that is not the last is read as one before the next element, and
    one after the root is lost *)
Theorem C99_comment_moves_refuted :
  let leaf_ b a := CNode (lit "x") [] None b a [] in
  read_loop false (found_root (fun _ => None) (CNode (lit "ldml") [] None [] [lit "end"] [leaf_ [lit "1"] [lit "2"]; leaf_ [lit "3"] [lit "4"]])) []
  = Ok (CNode (lit "ldml") [] None [] [] [leaf_ [lit "1"] []; leaf_ [lit "2"; lit "3"] [lit "4"]]).
Proof. vm_compute. reflexivity. Qed.

(** * Examples *)
Definition c99_doc (t : string) (v : string) (h : Z) : lnode :=
  LNode (lit "ldml") [(lit "v", lit v)] None 0 h None [LNode (lit "dates") [(lit "v", lit v)] (Some (lit t)) 1 (100 + h) None []].
Example C99_example :
  well_formed per_hundred (c99_doc "a--b" "1" 1) /\ well_formed per_hundred (c99_doc "c" "2" 2) /\ well_formed per_hundred (c99_doc "d" "2" 3) /\
  merge_notes (c99_doc "a--b" "1" 1) (c99_doc "c" "2" 2) (c99_doc "d" "2" 3) =
  [([1%Z], lit "Clash: ""a--b"" or ""c"" from ""d"""); ([1%Z], lit "Attribute (v) clash: ""1"" or ""2"" from ""2""");
   ([], lit "Attribute (v) clash: ""1"" or ""2"" from ""2""")] /\
  ~ comment_text (lit "Clash: ""a--b"" or ""c"" from ""d""") /\ comment_text (lit "Clash: ""a-b-"" or ""c"" from ""d""").
Proof.
  split; [apply well_formedb_ok; vm_compute; reflexivity|]. split; [apply well_formedb_ok; vm_compute; reflexivity|].
  split; [apply well_formedb_ok; vm_compute; reflexivity|]. split; [vm_compute; reflexivity|]. split.
  - intro H. apply H. exists (lit "Clash: ""a"), (lit "b"" or ""c"" from ""d""-"). reflexivity.
  - apply (C99_note_writable (Some (lit "a-b-")) (Some (lit "c")) (Some (lit "d"))).
    intros s [E|[E|E]]; injection E as <-; intros (p & q & E); repeat (destruct p as [|? p]; try discriminate).
Qed.
(** a text with the end of a comment puts an element into the document *)
Example C99_injection :
  comment_then (comment_line [] (lit "Clash: ""--><x/>"" or ""c"" from ""d""")) (lit "Clash: """)
    (lit "<x/>"" or ""c"" from ""d""-->" ++ nl).
Proof.
  split; [|reflexivity]. intros (p & q & E); repeat (destruct p as [|? p]; try discriminate).
Qed.
Example C99_settled_example :
  settled_el (CNode (lit "ldml") [] None [lit "top"] [] [CNode (lit "x") [] None [lit "1"] [] []; CNode (lit "y") [] None [] [lit "2"] []]).
Proof.
  constructor; [|discriminate|].
  - repeat constructor; try discriminate; intros l k r E; destruct l; discriminate.
  - intros l k r E Nr. destruct l as [|? [|? [|? l]]]; try discriminate.
    + injection E as <- <-. reflexivity.
    + injection E as <- <- <-. contradiction.
Qed.

(** [s] starts with indented lines that are the comments [cs], and [rest] follows *)
Inductive lines_then (indent : pystr) : pystr -> list pystr -> pystr -> Prop :=
| lt_nil rest : lines_then indent rest [] rest
| lt_cons s c s' cs rest : comment_then s c (nl ++ s') -> lines_then indent s' cs rest ->
    lines_then indent (indent ++ s) (c :: cs) rest.
Lemma comment_lines indent cs rest : Forall comment_text cs -> lines_then indent (flat_map (comment_line indent) cs ++ rest) cs rest.
Proof.
  induction 1 as [|c cs Hc H IH]; [constructor|]. cbn [flat_map]. unfold comment_line at 1. rewrite <- !app_assoc.
  econstructor; [|exact IH]. split; [exact Hc|]. reflexivity.
Qed.
(** C99: an element is written after its comments and before those that follow it, one to a line and in order *)
Theorem C99_written_around indent before body after rest :
  Forall comment_text before -> Forall comment_text after ->
  exists behind, lines_then indent (with_comments indent before body after ++ rest) before (body ++ behind) /\
    lines_then indent behind after rest.
Proof.
  intros Hb Ha. exists (flat_map (comment_line indent) after ++ rest). split; [|now apply comment_lines].
  unfold with_comments. rewrite <- !app_assoc. now apply comment_lines.
Qed.
Example C99_written_case : with_comments (lit "  ") [lit " one "; lit "two"] (lit "  <a/>" ++ nl) [lit "three"] =
  lit "  <!-- one -->" ++ nl ++ lit "  <!--two-->" ++ nl ++ lit "  <a/>" ++ nl ++ lit "  <!--three-->" ++ nl /\
  Forall comment_text [lit " one "; lit "two"].
Proof.
  split; [reflexivity|]. constructor; [|constructor; [|exact (Forall_nil _)]].
  all: intros (p & q & E); cbn in E; repeat (destruct p as [|? p]; [discriminate E|]; cbn in E; injection E as _ E); destruct p; discriminate.
Qed.
