(** C18: the IANA registry reader (lib/sldr/iana.py). *)
From Coq Require Import String.
From Verif Require Import Py PyFacts M_Collation M_Iana P_Collation2 T_Collation2.
Local Open Scope nat_scope.

(** ** Specification *)
(** A field as written in the file: its lower case name and value, and the continuation lines
    (stripped) that follow it. *)
Record wfield := mkF { w_name : pystr; w_value : pystr; w_conts : list pystr }.
(** the text of the field, continuation lines joined with spaces *)
Definition w_text (w : wfield) : pystr := w_value w ++ flat_map (fun c => 32%N :: c) (w_conts w).

(** a text without white space at its ends; it may be empty *)
Definition trimmed (ws : N -> bool) (s : pystr) : Prop :=
  s = [] \/ (exists x m, s = x :: m /\ ws x = false) /\ (exists y m, s = m ++ [y] /\ ws y = false).
(** "Name: value", white space around the value; the name ends at the first colon *)
Definition field_line (ws : N -> bool) (lower : pystr -> pystr) (l f v : pystr) : Prop :=
  exists p name q q2, l = p ++ name ++ [58%N] ++ q ++ v ++ q2 /\
    forallb ws p = true /\ forallb ws q = true /\ forallb ws q2 = true /\ ws 58%N = false /\
    ~ In 58%N name /\ (forall x m, name = x :: m -> ws x = false) /\ f = lower name /\ trimmed ws v.

(** the lines of a file and the fields they hold: field lines, continuation lines (a leading
    space, no colon) and other lines without a colon such as %% *)
Inductive written (ws : N -> bool) (lower : pystr -> pystr) : list pystr -> list wfield -> Prop :=
| wr_nil : written ws lower [] []
| wr_sep l ls fs : (forall r, l <> 32%N :: r) -> ~ In 58%N (strip ws l) ->
    written ws lower ls fs -> written ws lower (l :: ls) fs
| wr_field l ls fs f v cs : (forall r, l <> 32%N :: r) ->
    field_line ws lower l f v ->
    Forall (fun c => exists r, c = 32%N :: r /\ ~ In 58%N (strip ws c)) cs ->
    written ws lower ls fs ->
    written ws lower (l :: cs ++ ls) (mkF f v (map (strip ws) cs) :: fs).

(** all the texts of one field, in file order *)
Definition texts (fs : list wfield) (f : pystr) : list pystr :=
  map w_text (filter (fun w => streq (w_name w) f) fs).
(** what a record shows for a field *)
Definition shows (l : list pystr) : option fval :=
  match l with [] => None | [x] => Some (VStr x) | _ => Some (VList l) end.

(** continuation lines only after the first occurrence of a field of a record, and not after
    Type or Subtag *)
Fixpoint folds_ok (seen : list pystr) (fs : list wfield) : Prop :=
  match fs with
  | [] => True
  | w :: fs' =>
      (w_conts w <> [] -> w_name w <> TYPE /\ w_name w <> SUBTAG /\ ~ In (w_name w) seen) /\
      folds_ok (if streq (w_name w) SUBTAG then [] else w_name w :: seen) fs'
  end.

(** the last Type among some fields *)
Definition last_type (fs : list wfield) : option pystr :=
  last (map (fun w => Some (w_text w)) (filter (fun w => streq (w_name w) TYPE) fs)) None.

(** a file cut at its Subtag fields: the fields before the first one, and for each one the
    fields up to the next *)
Fixpoint cut (fs : list wfield) : list wfield * list (wfield * list wfield) :=
  match fs with
  | [] => ([], [])
  | w :: fs' =>
      let '(b, segs) := cut fs' in
      if streq (w_name w) SUBTAG then ([], (w, b) :: segs) else (w :: b, segs)
  end.
(** each with the type in force where the Subtag stands *)
Fixpoint with_types (cur : option pystr) (segs : list (wfield * list wfield))
  : list (option pystr * pystr * list wfield) :=
  match segs with
  | [] => []
  | (w, b) :: r =>
      (cur, w_text w, b) :: with_types (match last_type b with Some t => Some t | None => cur end) r
  end.
Definition records (fs : list wfield) : list (option pystr * pystr * list wfield) :=
  let '(b, segs) := cut fs in with_types (last_type b) segs.

(** the last record with a given type and subtag *)
Fixpoint last_body (l : list (option pystr * pystr * list wfield)) (ty sub : pystr) : option (list wfield) :=
  match l with
  | [] => None
  | (t, n, b) :: l' =>
      match last_body l' ty sub with
      | Some b' => Some b'
      | None => match t with
                | Some t => if (streq t ty && streq n sub)%bool then Some b else None
                | None => None
                end
      end
  end.

(** the dictionary of a record: every field except Type, with its text, or the list of its
    texts in file order if there are several *)
Definition holds (r : irec) (body : list wfield) : Prop :=
  dget streq r TYPE = None /\
  forall f, f <> TYPE -> dget streq r f = shows (texts body f).

(** ** Proof *)
Section P.
Variables (ws : N -> bool) (lower : pystr -> pystr).

Lemma split_colon_none s : ~ In 58%N s -> split_colon s = None.
Proof.
  induction s as [|c s IH]; cbn [split_colon]; intros H; [reflexivity|].
  destruct (N.eqb_spec c 58) as [->|_]; [exfalso; apply H; left; reflexivity|].
  rewrite IH; [reflexivity|]. intros Hi. apply H. right. exact Hi.
Qed.

Lemma upd_last_app f l r : upd_last f (l ++ [r]) = l ++ [f r].
Proof. unfold upd_last. rewrite removelast_last, last_last. reflexivity. Qed.

Lemma conts_gen l r tys ty f s cs :
  dget streq r f = Some (VStr s) ->
  Forall (fun c => exists r, c = 32%N :: r /\ ~ In 58%N (strip ws c)) cs ->
  exists r', ilines ws lower (mkI (l ++ [r]) tys ty (Some f)) cs = Ok (mkI (l ++ [r']) tys ty (Some f)) /\
    dget streq r' f = Some (VStr (s ++ flat_map (fun c => 32%N :: c) (map (strip ws) cs))) /\
    forall g, g <> f -> dget streq r' g = dget streq r g.
Proof.
  intros H HF. revert s r H. induction HF as [|c cs (c' & -> & Hc) HF IH]; intros s r H.
  - exists r. cbn [ilines map flat_map]. rewrite app_nil_r. auto.
  - cbn [ilines]. unfold iline, continue. cbn [i_field i_recs]. rewrite last_last, H. cbn [bind].
    unfold field_of. rewrite split_colon_none by exact Hc. cbn [bind].
    rewrite upd_last_app.
    destruct (IH (s ++ 32%N :: strip ws (32%N :: c'))
      (dset streq r f (VStr (s ++ 32%N :: strip ws (32%N :: c'))))) as (r' & E1 & E2 & E3).
    + apply (dget_dset_same streq streq_spec).
    + exists r'. split; [exact E1|]. split.
      * rewrite E2. cbn [map flat_map]. rewrite <- app_assoc. reflexivity.
      * intros g Hg. rewrite E3 by exact Hg. apply (dget_dset_other streq streq_spec). exact Hg.
Qed.

Lemma ilines_app st a b : ilines ws lower st (a ++ b) = do st <- ilines ws lower st a; ilines ws lower st b.
Proof.
  revert st. induction a as [|x a IH]; intros st; cbn [ilines app]; [reflexivity|].
  destruct (iline ws lower st x); cbn [bind]; [apply IH | reflexivity].
Qed.

Lemma shows_snoc l x : l <> [] -> shows (l ++ [x]) = Some (VList (l ++ [x])).
Proof. destruct l as [|a [|b l]]; [congruence | reflexivity | reflexivity]. Qed.

Lemma texts_snoc fs w f : texts (fs ++ [w]) f = texts fs f ++ (if streq (w_name w) f then [w_text w] else []).
Proof.
  unfold texts. rewrite filter_app, map_app. cbn [filter]. destruct (streq (w_name w) f); reflexivity.
Qed.

Lemma put_get r f v g : dget streq (put r f v) g =
  if streq g f then Some (match dget streq r f with
                          | None => VStr v | Some (VStr s) => VList [s; v] | Some (VList l) => VList (l ++ [v]) end)
  else dget streq r g.
Proof.
  unfold put. destruct (dget streq r f) as [[s|l]|]; apply (dget_dset streq streq_spec).
Qed.

Lemma texts_in fs f : texts fs f = [] <-> ~ In f (map w_name fs).
Proof.
  unfold texts. induction fs as [|w fs IH]; cbn [filter map]; [cbn; tauto|].
  destruct (streq_spec (w_name w) f) as [E|E]; cbn [map].
  - split; [discriminate|]. intros H. exfalso. apply H. left. exact E.
  - rewrite IH. cbn [In]. tauto.
Qed.

Lemma split_colon_app name r : ~ In 58%N name -> split_colon (name ++ 58%N :: r) = Some (name, r).
Proof.
  induction name as [|c name IH]; cbn [app split_colon]; intros H; [reflexivity|].
  destruct (N.eqb_spec c 58) as [->|_]; [exfalso; apply H; left; reflexivity|].
  rewrite IH; [reflexivity|]. intros Hi. apply H. right. exact Hi.
Qed.
Lemma strip_ws p : forallb ws p = true -> strip ws p = [].
Proof.
  intros H. unfold strip. rewrite <- (app_nil_r p), lstrip_ws by exact H. reflexivity.
Qed.

Lemma field_line_of l f v : field_line ws lower l f v -> field_of ws lower l = Some (f, v).
Proof.
  intros (p & name & q & q2 & -> & Hp & Hq & Hq2 & Hc & Hn & Hh & -> & Hv). unfold field_of.
  assert (Hd : exists x m, name ++ [58%N] = x :: m /\ ws x = false).
  { destruct name as [|x m]; [exists 58%N, []; auto|]. exists x, (m ++ [58%N]). split; [reflexivity|].
    now apply (Hh x m). }
  destruct Hv as [->|[Hv1 Hv2]].
  - assert (E : strip ws (p ++ name ++ [58%N] ++ q ++ [] ++ q2) = name ++ [58%N]).
    { rewrite app_assoc with (l := name). cbn [app]. apply strip_trim; [exact Hp | | exact Hd |].
      - rewrite forallb_app, Hq, Hq2. reflexivity.
      - exists 58%N, name. auto. }
    rewrite E, split_colon_app by exact Hn. rewrite strip_ws; reflexivity.
  - assert (E : strip ws (p ++ name ++ [58%N] ++ q ++ v ++ q2) = name ++ 58%N :: q ++ v).
    { replace (name ++ [58%N] ++ q ++ v ++ q2) with ((name ++ [58%N] ++ q ++ v) ++ q2) by (rewrite <- !app_assoc; reflexivity).
      change (name ++ 58%N :: q ++ v) with (name ++ [58%N] ++ q ++ v).
      apply strip_trim; [exact Hp | exact Hq2 | |].
      - destruct Hd as (x & m & E & Hx). exists x, (m ++ q ++ v). split; [|exact Hx].
        rewrite app_assoc, E. reflexivity.
      - destruct Hv2 as (y & m & -> & Hy). exists y, (name ++ [58%N] ++ q ++ m). split; [|exact Hy].
        rewrite <- !app_assoc. reflexivity. }
    rewrite E, split_colon_app by exact Hn.
    rewrite <- (app_nil_r v) at 1. rewrite (strip_trim ws q v []); auto.
Qed.

(** the fields of one record: after the fields [done], the current dictionary shows exactly
    them, and reading the fields [fs], none a Subtag, adds them *)
Lemma body_gen ls fs : written ws lower ls fs ->
  (forall w, In w fs -> w_name w <> SUBTAG) ->
  forall l r tys ty fld done seen,
  (forall f, f <> TYPE -> dget streq r f = shows (texts done f)) ->
  dget streq r TYPE = None ->
  (forall f, f <> TYPE -> In f (map w_name done) -> In f seen) ->
  folds_ok seen fs ->
  exists r' ty' fld', ilines ws lower (mkI (l ++ [r]) tys ty fld) ls = Ok (mkI (l ++ [r']) tys ty' fld') /\
    (forall f, f <> TYPE -> dget streq r' f = shows (texts (done ++ fs) f)) /\
    dget streq r' TYPE = None /\
    ty' = match last_type fs with Some t => Some t | None => ty end.
Proof.
  induction 1 as [|x ls fs H32 Hc HW IH|x ls fs f v cs H32 Hf HF HW IH]; intros Hns l r tys ty fld done seen HR HT Hseen HO.
  - exists r, ty, fld. rewrite app_nil_r. repeat split; auto.
  - cbn [ilines]. unfold iline.
    replace (match x with 32%N :: _ => continue ws (mkI (l ++ [r]) tys ty fld) x | _ => Ok (mkI (l ++ [r]) tys ty fld) end)
      with (Ok (mkI (l ++ [r]) tys ty fld)).
    + cbn [bind]. unfold field_of. rewrite split_colon_none by exact Hc. cbn [bind].
      now apply (IH Hns l r tys ty fld done seen).
    + destruct x as [|c x]; [reflexivity|]. destruct c as [|p]; [reflexivity|].
      do 6 (try (destruct p as [p|p|]; try reflexivity)). exfalso. now apply (H32 x).
  - cbn [ilines]. unfold iline at 1.
    replace (match x with 32%N :: _ => continue ws (mkI (l ++ [r]) tys ty fld) x | _ => Ok (mkI (l ++ [r]) tys ty fld) end)
      with (Ok (mkI (l ++ [r]) tys ty fld)).
    2: { destruct x as [|c x]; [reflexivity|]. destruct c as [|p]; [reflexivity|].
         do 6 (try (destruct p as [p|p|]; try reflexivity)). exfalso. now apply (H32 x). }
    cbn [bind]. rewrite (field_line_of _ _ _ Hf). cbn [folds_ok w_name w_conts] in HO. destruct HO as [HO1 HO2].
    assert (Hsub : f <> SUBTAG) by (apply (Hns (mkF f v (map (strip ws) cs))); left; reflexivity).
    assert (Hns' : forall w, In w fs -> w_name w <> SUBTAG) by (intros w Hw; apply Hns; right; exact Hw).
    unfold field at 1. cbn [i_recs i_types i_type i_field].
    rewrite (proj2 (streq_false f SUBTAG) Hsub) in *.
    destruct (streq_spec f TYPE) as [->|Hty].
    + cbn [bind]. assert (cs = []) as ->.
      { destruct cs; [reflexivity|]. destruct HO1 as [HO1 _]; [discriminate|]. congruence. }
      cbn [app map].
      destruct (IH Hns' l r tys (Some v) (Some TYPE) (done ++ [mkF TYPE v []]) (TYPE :: seen)) as (r' & ty' & fld' & E1 & E2 & E3 & E4).
      * intros g Hg. rewrite texts_snoc. cbn [w_name]. rewrite (proj2 (streq_false TYPE g)) by congruence.
        rewrite app_nil_r. now apply HR.
      * exact HT.
      * intros g Hg Hi. rewrite map_app, in_app_iff in Hi. cbn [map In w_name] in Hi.
        destruct Hi as [Hi|[Hi|[]]]; [right; now apply Hseen | congruence].
      * exact HO2.
      * exists r', ty', fld'. split; [exact E1|]. split; [|split; [exact E3|]].
        -- intros g Hg. rewrite E2 by exact Hg. rewrite <- app_assoc. reflexivity.
        -- rewrite E4. unfold last_type. cbn [filter w_name]. rewrite streq_refl. cbn [map].
           unfold w_text. cbn [w_value w_conts flat_map]. rewrite app_nil_r.
           destruct (map (fun w => Some (w_value w ++ flat_map (fun c => 32%N :: c) (w_conts w)))
             (filter (fun w => streq (w_name w) TYPE) fs)) as [|a m] eqn:Em; [reflexivity|].
           change (last (Some v :: a :: m) None) with (last (a :: m) None).
           destruct (last (a :: m) None) as [z|] eqn:El; [reflexivity|].
           exfalso. assert (In (last (a :: m) None) (a :: m)) as Hi.
           { destruct (exists_last (l := a :: m)) as (p & q & Epq); [discriminate|]. rewrite Epq, last_last.
             apply in_or_app. right. left. reflexivity. }
           rewrite El, <- Em in Hi. apply in_map_iff in Hi. destruct Hi as (? & ? & _). discriminate.
    + cbn [bind]. rewrite upd_last_app, ilines_app.
      (* the value is put, then its continuation lines *)
      assert (C : exists r1, ilines ws lower (mkI (l ++ [put r f v]) tys ty (Some f)) cs
                  = Ok (mkI (l ++ [r1]) tys ty (Some f)) /\
               dget streq r1 f = shows (texts (done ++ [mkF f v (map (strip ws) cs)]) f) /\
               forall g, g <> f -> dget streq r1 g = dget streq r g).
      { destruct cs as [|c cs].
        - exists (put r f v). split; [reflexivity|]. split.
          + rewrite put_get, streq_refl, HR by exact Hty. rewrite texts_snoc. cbn [w_name]. rewrite streq_refl.
            unfold w_text. cbn [map w_value w_conts flat_map]. rewrite app_nil_r.
            destruct (texts done f) as [|a [|b m]]; reflexivity.
          + intros g Hg. rewrite put_get, (proj2 (streq_false g f) Hg). reflexivity.
        - destruct HO1 as (_ & _ & Hnew); [discriminate|].
          assert (Et : texts done f = []).
          { apply texts_in. intros Hi. apply Hnew. now apply Hseen. }
          assert (Eg : dget streq (put r f v) f = Some (VStr v)).
          { rewrite put_get, streq_refl, HR, Et by exact Hty. reflexivity. }
          destruct (conts_gen l _ tys ty f v _ Eg HF) as (r1 & A1 & A2 & A3).
          exists r1. split; [exact A1|]. split.
          + rewrite A2, texts_snoc, Et. cbn [w_name]. rewrite streq_refl. reflexivity.
          + intros g Hg. rewrite A3 by exact Hg. rewrite put_get, (proj2 (streq_false g f) Hg). reflexivity. }
      destruct C as (r1 & C1 & C2 & C3). rewrite C1. cbn [bind].
      destruct (IH Hns' l r1 tys ty (Some f) (done ++ [mkF f v (map (strip ws) cs)]) (f :: seen)) as (r' & ty' & fld' & E1 & E2 & E3 & E4).
      * intros g Hg. destruct (streq_spec g f) as [->|Hgf]; [exact C2|].
        rewrite C3 by exact Hgf. rewrite texts_snoc. cbn [w_name].
        rewrite (proj2 (streq_false f g)) by congruence. rewrite app_nil_r. now apply HR.
      * rewrite C3 by congruence. exact HT.
      * intros g Hg Hi. rewrite map_app, in_app_iff in Hi. cbn [map In w_name] in Hi.
        destruct Hi as [Hi|[Hi|[]]]; [right; now apply Hseen | left; exact Hi].
      * exact HO2.
      * exists r', ty', fld'. split; [exact E1|]. split; [|split; [exact E3|]].
        -- intros g Hg. rewrite E2 by exact Hg. rewrite <- app_assoc. reflexivity.
        -- rewrite E4. unfold last_type. cbn [filter w_name]. rewrite (proj2 (streq_false f TYPE) Hty). reflexivity.
Qed.

Lemma written_app ls a b : written ws lower ls (a ++ b) ->
  exists l1 l2, ls = l1 ++ l2 /\ written ws lower l1 a /\ written ws lower l2 b.
Proof.
  remember (a ++ b) as fs eqn:E. intros H. revert a E.
  induction H as [|x ls fs H32 Hc HW IH|x ls fs f v cs H32 Hf HF HW IH]; intros a E.
  - symmetry in E. apply app_eq_nil in E. destruct E as [-> ->]. exists [], []. repeat split; constructor.
  - destruct (IH a E) as (l1 & l2 & -> & W1 & W2). exists (x :: l1), l2. repeat split; [|exact W2].
    now apply wr_sep.
  - destruct a as [|w a].
    + exists [], (x :: cs ++ ls). split; [reflexivity|]. split; [constructor|]. cbn [app] in E. rewrite <- E.
      now apply wr_field.
    + cbn [app] in E. injection E as <- E. destruct (IH a E) as (l1 & l2 & -> & W1 & W2).
      exists (x :: cs ++ l1), l2. split; [cbn [app]; now rewrite app_assoc|]. split; [|exact W2].
      now apply wr_field.
Qed.

Lemma folds_app seen a b : folds_ok seen (a ++ b) ->
  folds_ok seen a /\ exists seen', folds_ok seen' b.
Proof.
  revert seen. induction a as [|w a IH]; intros seen H; cbn [app folds_ok] in *.
  - split; [exact I | exists seen; exact H].
  - destruct H as [H1 H2]. destruct (IH _ H2) as [H3 H4]. split; [split; assumption | exact H4].
Qed.

(** every entry of the type tables names a dictionary already made *)
Definition tys_ok (tys : list (pystr * list (pystr * nat))) (n : nat) : Prop :=
  forall ty d s k, dget streq tys ty = Some d -> dget streq d s = Some k -> k < n.

Lemma line32 x st : (forall r, x <> 32%N :: r) ->
  (match x with 32%N :: _ => continue ws st x | _ => Ok st end) = Ok st.
Proof.
  intros H. destruct x as [|c x]; [reflexivity|]. destruct c as [|p]; [reflexivity|].
  do 6 (try (destruct p as [p|p|]; try reflexivity)). exfalso. now apply (H x).
Qed.

(** the lines up to and including a field *)
Lemma written_one ls w : written ws lower ls [w] -> w_conts w = [] ->
  forall st, ilines ws lower st ls = field st (w_name w) (w_value w).
Proof.
  remember [w] as fs eqn:E. intros H.
  assert (N : forall ls, written ws lower ls [] -> forall st, ilines ws lower st ls = Ok st).
  { clear. intros ls H. remember [] as fs eqn:E. induction H as [|x ls fs H32 Hc HW IH|]; [reflexivity| |discriminate].
    intros st. cbn [ilines]. unfold iline. rewrite line32 by exact H32. cbn [bind].
    unfold field_of. rewrite split_colon_none by exact Hc. cbn [bind]. now apply IH. }
  induction H as [|x ls fs H32 Hc HW IH|x ls fs f v cs H32 Hf HF HW IH]; [discriminate| |]; intros Hcs st.
  - cbn [ilines]. unfold iline. rewrite line32 by exact H32. cbn [bind].
    unfold field_of. rewrite split_colon_none by exact Hc. cbn [bind]. now apply IH.
  - injection E as <- ->. cbn [w_conts] in Hcs. destruct cs; [|discriminate]. cbn [app ilines].
    unfold iline. rewrite line32 by exact H32. cbn [bind]. rewrite (field_line_of _ _ _ Hf). cbn [w_name w_value].
    destruct (field st f v); cbn [bind]; [now apply N | reflexivity].
Qed.

Lemma segs_gen segs : forall ls seen recs tys cur fld,
  written ws lower ls (flat_map (fun sb => fst sb :: snd sb) segs) ->
  Forall (fun sb => w_name (fst sb) = SUBTAG /\ forall w, In w (snd sb) -> w_name w <> SUBTAG) segs ->
  folds_ok seen (flat_map (fun sb => fst sb :: snd sb) segs) ->
  Forall (fun x => fst (fst x) <> None) (with_types cur segs) ->
  tys_ok tys (length recs) ->
  exists st', ilines ws lower (mkI recs tys cur fld) ls = Ok st' /\
    (exists more, i_recs st' = recs ++ more) /\
    forall ty s, match last_body (with_types cur segs) ty s with
                 | Some b => exists r, iana_get st' ty s = Some r /\ holds r b
                 | None => iana_get st' ty s = iana_get (mkI recs tys cur fld) ty s
                 end.
Proof.
  induction segs as [|[w b] segs IH]; intros ls seen recs tys cur fld HW HS HO HT HK.
  - cbn [flat_map] in HW. exists (mkI recs tys cur fld). split; [|split].
    + remember [] as fs eqn:E. induction HW as [|x ls fs H32 Hc HW' IHW|]; [reflexivity| |discriminate].
      cbn [ilines]. unfold iline. rewrite line32 by exact H32. cbn [bind].
      unfold field_of. rewrite split_colon_none by exact Hc. cbn [bind]. now apply IHW.
    + exists []. now rewrite app_nil_r.
    + intros ty s. reflexivity.
  - cbn [flat_map fst snd] in HW, HO. inversion HS as [|? ? [Hw Hb] HS']; subst. cbn [fst snd] in *.
    destruct (written_app _ [w] (b ++ flat_map (fun sb => fst sb :: snd sb) segs) HW) as (l1 & l23 & -> & W1 & W23).
    destruct (written_app _ _ _ W23) as (l2 & l3 & -> & W2 & W3).
    cbn [app folds_ok] in HO. destruct HO as [HO1 HO2].
    assert (Hcs : w_conts w = []).
    { destruct (w_conts w) eqn:Ec; [reflexivity|]. destruct HO1 as (_ & HX & _); [discriminate | congruence]. }
    rewrite Hw, streq_refl in HO2. apply folds_app in HO2. destruct HO2 as [HO2 (seen' & HO3)].
    cbn [with_types] in HT |- *. inversion HT as [|? ? HT1 HT2]; subst. cbn [fst] in HT1.
    destruct cur as [cur|]; [|congruence].
    rewrite ilines_app, (written_one _ _ W1 Hcs). unfold field. rewrite Hw.
    change (streq SUBTAG TYPE) with false. rewrite streq_refl. cbn [i_type i_types i_recs bind].
    set (tys1 := dset streq tys cur (dset streq (match dget streq tys cur with Some d => d | None => [] end)
                   (w_value w) (length recs))).
    rewrite ilines_app.
    destruct (body_gen l2 b W2 Hb recs [] tys1 (Some cur) (Some SUBTAG) [] []) as (r' & ty' & fld' & E1 & E2 & E3 & E4).
    { intros f _. reflexivity. } { reflexivity. } { intros f _ []. } { exact HO2. }
    rewrite E1. cbn [bind].
    assert (HK1 : tys_ok tys1 (length (recs ++ [r']))).
    { rewrite app_length. cbn [length]. intros ty d s k. unfold tys1. rewrite (dget_dset streq streq_spec).
      destruct (streq_spec ty cur) as [->|_].
      - intros E. injection E as <-. rewrite (dget_dset streq streq_spec).
        destruct (streq_spec s (w_value w)) as [->|_]; [intros E; injection E as <-; lia|].
        destruct (dget streq tys cur) as [d0|] eqn:Ed; [|discriminate]. intros Es.
        specialize (HK cur d0 s k Ed Es). lia.
      - intros Ed Es. specialize (HK ty d s k Ed Es). lia. }
    rewrite <- E4 in HT2 |- *.
    destruct (IH l3 seen' (recs ++ [r']) tys1 ty' fld' W3 HS' HO3 HT2 HK1) as (st' & F1 & (more & F2) & F3).
    exists st'. split; [exact F1|]. split; [exists ([r'] ++ more); rewrite F2, <- app_assoc; reflexivity|].
    intros ty s. specialize (F3 ty s). cbn [last_body].
    destruct (last_body (with_types ty' segs) ty s) as [b'|]; [exact F3|].
    assert (Et : w_text w = w_value w) by (unfold w_text; rewrite Hcs; cbn [flat_map]; apply app_nil_r).
    rewrite Et.
    assert (G : iana_get (mkI (recs ++ [r']) tys1 ty' fld') ty s =
                if (streq cur ty && streq (w_value w) s)%bool then Some r' else iana_get (mkI recs tys (Some cur) fld) ty s).
    { unfold iana_get. cbn [i_types i_recs]. unfold tys1. rewrite (dget_dset streq streq_spec).
      rewrite (streq_sym cur ty). destruct (streq_spec ty cur) as [->|Hty]; cbn [andb].
      - rewrite (dget_dset streq streq_spec). rewrite (streq_sym (w_value w) s).
        destruct (streq_spec s (w_value w)) as [->|Hs].
        + rewrite app_nth2, Nat.sub_diag by lia. reflexivity.
        + destruct (dget streq tys cur) as [d0|] eqn:Ed; [|reflexivity].
          destruct (dget streq d0 s) as [k|] eqn:Es; [|reflexivity].
          rewrite app_nth1; [reflexivity | exact (HK cur d0 s k Ed Es)].
      - destruct (dget streq tys ty) as [d0|] eqn:Ed; [|reflexivity].
        destruct (dget streq d0 s) as [k|] eqn:Es; [|reflexivity].
        rewrite app_nth1; [reflexivity | exact (HK ty d0 s k Ed Es)]. }
    rewrite F3, G. destruct (streq cur ty && streq (w_value w) s)%bool; [|reflexivity].
    exists r'. split; [reflexivity|]. split; [exact E3|]. exact E2.
Qed.

Lemma cut_spec fs : forall b segs, cut fs = (b, segs) ->
  fs = b ++ flat_map (fun sb => fst sb :: snd sb) segs /\
  (forall w, In w b -> w_name w <> SUBTAG) /\
  Forall (fun sb => w_name (fst sb) = SUBTAG /\ forall w, In w (snd sb) -> w_name w <> SUBTAG) segs.
Proof.
  induction fs as [|w fs IH]; intros b segs; cbn [cut].
  - intros E. injection E as <- <-. repeat split; [intros w [] | constructor].
  - destruct (cut fs) as [b0 segs0]. destruct (IH b0 segs0 eq_refl) as (E1 & E2 & E3).
    destruct (streq_spec (w_name w) SUBTAG) as [Ew|Ew]; intros E; injection E as <- <-.
    + cbn [app flat_map fst snd]. rewrite E1 at 1. split; [reflexivity|]. split; [intros ? []|].
      constructor; [split; assumption | exact E3].
    + cbn [app]. rewrite E1 at 1. split; [reflexivity|]. split; [|exact E3].
      intros x [<-|Hx]; [exact Ew | now apply E2].
Qed.

(** Reading a registry file succeeds if a Type comes before every Subtag, and afterwards a
    type and subtag name exactly the fields of the last such record: those between its Subtag
    line and the next Subtag line. *)
Theorem C18_records ls fs :
  written ws lower ls fs -> folds_ok [] fs ->
  Forall (fun x => fst (fst x) <> None) (records fs) ->
  exists st, iana_parse ws lower ls = Ok st /\
    forall ty sub, match last_body (records fs) ty sub with
                   | Some b => exists r, iana_get st ty sub = Some r /\ holds r b
                   | None => iana_get st ty sub = None
                   end.
Proof.
  unfold records. destruct (cut fs) as [b segs] eqn:Ec. intros HW HO HT.
  destruct (cut_spec _ _ _ Ec) as (Efs & Hb & HS).
  rewrite Efs in HW, HO. destruct (written_app _ _ _ HW) as (l1 & l2 & -> & W1 & W2).
  destruct (folds_app _ _ _ HO) as [HO1 (seen & HO2)].
  unfold iana_parse, istart. rewrite ilines_app.
  destruct (body_gen l1 b W1 Hb [] [] [] None None [] []) as (r' & ty' & fld' & E1 & E2 & E3 & E4).
  { intros f _. reflexivity. } { reflexivity. } { intros f _ []. } { exact HO1. }
  cbn [app] in E1. rewrite E1. cbn [bind].
  assert (Ety : ty' = last_type b) by (rewrite E4; destruct (last_type b); reflexivity).
  rewrite <- Ety in HT |- *.
  destruct (segs_gen segs l2 seen [r'] [] ty' fld' W2 HS HO2 HT) as (st' & F1 & _ & F3).
  { intros ty d s k Hd. discriminate Hd. }
  exists st'. split; [exact F1|]. intros ty sub. specialize (F3 ty sub).
  destruct (last_body (with_types ty' segs) ty sub); [exact F3|]. rewrite F3. reflexivity.
Qed.

End P.

(** A Subtag with no Type before it is an error. *)
Theorem C18_subtag_without_type ws lower l v :
  (forall r, l <> 32%N :: r) -> field_line ws lower l SUBTAG v ->
  iana_parse ws lower [l] = Raise NameError.
Proof.
  intros H E. unfold iana_parse. cbn [ilines]. unfold iline. rewrite line32 by exact H. cbn [bind].
  rewrite (field_line_of _ _ _ _ _ E). reflexivity.
Qed.

(** ** Examples *)
Definition a_ws (c : N) : bool := (N.eqb c 32 || N.eqb c 10)%bool.
Definition a_low (s : pystr) : pystr :=
  map (fun c => if (N.leb 65 c && N.leb c 90)%bool then (c + 32)%N else c) s.

Definition ex_lines : list pystr :=
  [lit "File-Date: 2020-01-01"; lit "%%";
   lit "Type: language"; lit "Subtag: ro"; lit "Description: Romanian"; lit "Description: Moldavian";
   lit "Comments: a long"; lit "  comment"; lit "%%";
   lit "Type: grandfathered"; lit "Tag: art-lojban"; lit "Preferred-Value: jbo"].
Definition ex_fields : list wfield :=
  [mkF (lit "file-date") (lit "2020-01-01") [];
   mkF (lit "type") (lit "language") []; mkF (lit "subtag") (lit "ro") [];
   mkF (lit "description") (lit "Romanian") []; mkF (lit "description") (lit "Moldavian") [];
   mkF (lit "comments") (lit "a long") [lit "comment"];
   mkF (lit "type") (lit "grandfathered") []; mkF (lit "tag") (lit "art-lojban") [];
   mkF (lit "preferred-value") (lit "jbo") []].

Ltac wsep := apply wr_sep; [intros r E; discriminate E | apply inchars_false; reflexivity |].
Ltac fline n := exists [], (lit n), [32%N], []; split; [reflexivity|];
  repeat (split; [reflexivity|]); split; [apply inchars_false; reflexivity|];
  split; [intros x m E; injection E as <- <-; reflexivity|]; split; [reflexivity|]; right;
  split; [eexists; eexists; split; reflexivity|];
  match goal with |- exists y m, ?s = _ /\ _ => exists (last s 0%N), (removelast s) end; split; reflexivity.
Ltac wfld n := refine (wr_field _ _ _ _ _ _ _ [] _ _ _ _); [intros r E; discriminate E | fline n | constructor |].

Example C18_example : written a_ws a_low ex_lines ex_fields /\ folds_ok [] ex_fields /\
  Forall (fun x => fst (fst x) <> None) (records ex_fields).
Proof.
  split; [|split].
  - unfold ex_lines, ex_fields. wfld "File-Date"%string. wsep.
    wfld "Type"%string. wfld "Subtag"%string. wfld "Description"%string. wfld "Description"%string.
    refine (wr_field _ _ _ _ _ _ _ [lit "  comment"] _ _ _ _); [intros r E; discriminate E | fline "Comments"%string | |].
    { repeat constructor. exists (lit " comment"). split; [reflexivity | apply inchars_false; reflexivity]. }
    wsep. wfld "Type"%string. wfld "Tag"%string. wfld "Preferred-Value"%string. constructor.
  - cbn. repeat split; intros; try congruence; try discriminate. intuition discriminate.
  - cbn. repeat constructor. discriminate.
Qed.

(** What the real registry shows: a record with Tag instead of Subtag writes into the
    subtag read before it. *)
Theorem C18_tag_record_leaks :
  exists st r, iana_parse a_ws a_low ex_lines = Ok st /\
    iana_get st (lit "language") (lit "ro") = Some r /\
    dget streq r (lit "tag") = Some (VStr (lit "art-lojban")) /\
    dget streq r (lit "preferred-value") = Some (VStr (lit "jbo")).
Proof. eexists. eexists. split; [vm_compute; reflexivity|]. repeat split. Qed.

(** A continuation line after a repeated field is appended character by character. *)
Theorem C18_folded_repeat_refuted :
  exists st r, iana_parse a_ws a_low
     [lit "Type: language"; lit "Subtag: ia"; lit "Description: One"; lit "Description: Two"; lit "  ab"] = Ok st /\
    iana_get st (lit "language") (lit "ia") = Some r /\
    dget streq r (lit "description") = Some (VList [lit "One"; lit "Two"; lit " "; lit "a"; lit "b"]).
Proof. eexists. eexists. split; [vm_compute; reflexivity|]. repeat split. Qed.
