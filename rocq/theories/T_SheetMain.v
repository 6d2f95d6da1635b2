(** C104: what sheetldml reads and writes. *)
From Coq Require Import String.
From Verif Require Import Py PyFacts M_LdmlBase M_Sheet M_SheetProc M_SheetMain T_SheetProc.
Local Open Scope list_scope.
Local Open Scope nat_scope.

(** * Specification *)
(** a sheet that is looked at *)
Definition counts (s : sheet) : Prop :=
  s_table s = true /\ exists n, s_name s = Some n /\ (n = lit "Core" \/ n = lit "Posix" \/ n = lit "Minimal" \/ n = lit "Basic").
(** the rows among the child nodes *)
Inductive rows_in : list tnode -> list (list rnode) -> Prop :=
| RI_nil : rows_in [] []
| RI_row c ns cs : rows_in ns cs -> rows_in (Row c :: ns) (c :: cs)
| RI_other ns cs : rows_in ns cs -> rows_in (Other :: ns) cs.
(** the rows of all sheets that count, in order *)
Inductive doc_rows : list sheet -> list (list rnode) -> Prop :=
| DR_nil : doc_rows [] []
| DR_counts s d cs ds : counts s -> rows_in (s_nodes s) cs -> doc_rows d ds -> doc_rows (s :: d) (cs ++ ds)
| DR_other s d ds : ~ counts s -> doc_rows d ds -> doc_rows (s :: d) ds.
(** a row without cells behind its first column, or with one that is empty *)
Definition blank_row (c : list rnode) : Prop := read_row c = [] \/ read_row c = [[]].
Definition ends_blank (s : sheet) : Prop := exists ns c, s_nodes s = ns ++ [Row c] /\ blank_row c.
(** what the rows ask for, and the error if there is one *)
Definition jobs (rows : list (list pystr)) : list job * option exn :=
  (map snd (fst (process 0 Top rows)), snd (process 0 Top rows)).
(** values written into columns of a row one after the other *)
Definition write_all (put : list rnode -> nat -> option pystr -> res (list rnode)) (ws : list (nat * option pystr))
  (row : list rnode) : res (list rnode) :=
  fold_left (fun r w => do row <- r; put row (fst w) (snd w)) ws (Ok row).
(** what the row at place [i] asks for *)
Definition jobs_at (i : nat) (js : list (nat * job)) : list job := map snd (filter (fun x => Nat.eqb (fst x) i) js).

(** * Rows *)
Lemma read_sheet_spec s : read_sheet s = true <-> counts s.
Proof.
  unfold read_sheet, counts. rewrite andb_true_iff. split.
  - intros [T H]. split; [exact T|]. destruct (s_name s) as [n|]; [|discriminate]. exists n. split; [reflexivity|].
    unfold memstr in H. apply existsb_exists in H as (x & Hx & E). apply streq_true in E. subst x.
    unfold sheet_names in Hx. cbn [In] in Hx. intuition.
  - intros [T (n & -> & H)]. split; [exact T|]. unfold memstr. apply existsb_exists. exists n. split; [|apply streq_refl].
    unfold sheet_names. cbn [In]. intuition.
Qed.
Definition node_cells (n : tnode) : list (list rnode) := match n with Row c => [c] | Other => [] end.
Lemma rows_in_fun ns cs : rows_in ns cs <-> cs = flat_map node_cells ns.
Proof.
  split.
  - induction 1 as [|c ns cs H IH|ns cs H IH]; cbn [flat_map node_cells app]; congruence.
  - intros ->. induction ns as [|[c|] ns IH]; cbn; constructor; exact IH.
Qed.
Definition doc_cells (d : list sheet) : list (list rnode) :=
  flat_map (fun s => if read_sheet s then flat_map node_cells (s_nodes s) else []) d.
Lemma doc_rows_fun d cs : doc_rows d cs <-> cs = doc_cells d.
Proof.
  unfold doc_cells. split.
  - induction 1 as [|s d cs ds C R D IH|s d ds C D IH]; cbn [flat_map]; [reflexivity| |].
    + apply read_sheet_spec in C. rewrite C. apply rows_in_fun in R. congruence.
    + destruct (read_sheet s) eqn:E; [apply read_sheet_spec in E; contradiction|]. exact IH.
  - intros ->. induction d as [|s d IH]; cbn [flat_map]; [constructor|]. destruct (read_sheet s) eqn:E.
    + apply DR_counts; [now apply read_sheet_spec|now apply rows_in_fun|exact IH].
    + apply DR_other; [|exact IH]. intro C. apply read_sheet_spec in C. congruence.
Qed.
Lemma node_rows_cells ns : flat_map node_rows ns = map read_row (flat_map node_cells ns).
Proof. induction ns as [|[c|] ns IH]; cbn; congruence. Qed.
Lemma ods_rows_cells d : ods_rows d = map read_row (doc_cells d).
Proof.
  unfold ods_rows, doc_cells. induction d as [|s d IH]; cbn [flat_map]; [reflexivity|]. rewrite map_app, IH. f_equal.
  destruct (read_sheet s); [apply node_rows_cells|reflexivity].
Qed.
(** The rows used are the rows of the sheets Core, Posix, Minimal and Basic in the order of the
    spreadsheet, and no others. *)
Theorem C104_rows : forall d, exists cs, doc_rows d cs /\ ods_rows d = map read_row cs /\
  forall cs', doc_rows d cs' -> cs' = cs.
Proof.
  intro d. exists (doc_cells d). split; [now apply doc_rows_fun|]. split; [apply ods_rows_cells|].
  intros cs' H. now apply doc_rows_fun.
Qed.

(** * Sheets one after the other *)
Fixpoint end_mode (m : mode) (rows : list (list pystr)) : mode :=
  match rows with
  | [] => m
  | r :: rows' => match step_row m r with Ok (m', _) => end_mode m' rows' | Raise _ => m end
  end.
Lemma process_shift rows : forall i i' m,
  map snd (fst (process i m rows)) = map snd (fst (process i' m rows)) /\ snd (process i m rows) = snd (process i' m rows).
Proof.
  induction rows as [|r rows IH]; intros i i' m; cbn [process]; [auto|].
  destruct (step_row m r) as [[m' js]|e]; [|auto]. destruct (IH (S i) (S i') m') as [E1 E2].
  destruct (process (S i) m' rows) as [l e]. destruct (process (S i') m' rows) as [l' e']. cbn [fst snd] in *.
  split; [|exact E2]. rewrite !map_app, !map_map. cbn [snd]. now rewrite E1.
Qed.
Lemma process_app a : forall i m b, snd (process i m a) = None ->
  process i m (a ++ b)
  = (fst (process i m a) ++ fst (process (i + List.length a) (end_mode m a) b), snd (process (i + List.length a) (end_mode m a) b)).
Proof.
  induction a as [|r a IH]; intros i m b H; cbn [app process end_mode List.length].
  - rewrite Nat.add_0_r. cbn [fst app]. now destruct (process i m b).
  - cbn [process] in H. destruct (step_row m r) as [[m' js]|e]; [|discriminate].
    specialize (IH (S i) m' b). destruct (process (S i) m' a) as [l e] eqn:E. cbn [fst snd] in *.
    rewrite IH by exact H. rewrite Nat.add_succ_r. cbn [fst snd]. cbn [Nat.add]. now rewrite app_assoc.
Qed.
Lemma end_mode_app a : forall i m r, snd (process i m (a ++ [r])) = None -> r = [] \/ r = [[]] -> end_mode m (a ++ [r]) = Top.
Proof.
  induction a as [|x a IH]; intros i m r H R; cbn [app end_mode].
  - assert (step_row m r = Ok (Top, [])) as ->; [|reflexivity]. destruct R as [-> | ->]; destruct m; reflexivity.
  - cbn [app process] in H. destruct (step_row m x) as [[m' js]|e]; [|discriminate]. apply (IH (S i)); [|exact R].
    now destruct (process (S i) m' (a ++ [r])).
Qed.
Lemma ods_rows_one s : ods_rows [s] = if read_sheet s then flat_map node_rows (s_nodes s) else [].
Proof. unfold ods_rows. cbn [flat_map]. now rewrite app_nil_r. Qed.
(** If every sheet that counts ends with a blank row and none has an error of its own, the
    spreadsheet asks for what its sheets ask for, one after the other. *)
Theorem C104_sheets : forall d, (forall s, In s d -> counts s -> ends_blank s) ->
  (forall s, In s d -> snd (jobs (ods_rows [s])) = None) ->
  jobs (ods_rows d) = (flat_map (fun s => fst (jobs (ods_rows [s]))) d, None).
Proof.
  induction d as [|s d IH]; intros B E; [reflexivity|].
  assert (ods_rows (s :: d) = ods_rows [s] ++ ods_rows d) as ->.
  { rewrite ods_rows_one. reflexivity. }
  specialize (IH (fun s' H => B s' (or_intror H)) (fun s' H => E s' (or_intror H))).
  pose proof (E s (or_introl eq_refl)) as Es. unfold jobs in Es. cbn [snd] in Es.
  assert (end_mode Top (ods_rows [s]) = Top) as EM.
  { rewrite ods_rows_one in *. destruct (read_sheet s) eqn:C; [|reflexivity]. apply read_sheet_spec in C.
    destruct (B s (or_introl eq_refl) C) as (ns & c & En & Bl). rewrite En, flat_map_app in *. cbn [flat_map node_rows app] in *.
    eapply end_mode_app; [exact Es|exact Bl]. }
  unfold jobs in *. rewrite process_app by exact Es. rewrite EM. cbn [fst snd flat_map].
  injection IH as I1 I2. destruct (process_shift (ods_rows d) (0 + List.length (ods_rows [s])) 0 Top) as [S1 S2].
  rewrite map_app, S1, S2, I1, I2. reflexivity.
Qed.

(** Without the blank row a table goes on in the next sheet: the paths there are taken for its rows. *)
Definition txt_cell (s : string) : rnode := mkR true None [Para true [Txt (lit s)]].
Definition txt_row (l : list string) : tnode := Row (map txt_cell ("" :: l)%string).
Definition ex_core : sheet := mkS true (Some (lit "Core")) [Other; txt_row ["table1d(a/$row)"]; txt_row ["x"; "ex"; "1"]]%string.
Definition ex_posix : sheet := mkS true (Some (lit "Posix")) [txt_row ["b/c"; "see"; "2"]]%string.
Definition ex_notes : sheet := mkS true (Some (lit "Notes")) [txt_row ["b/d"; "dee"; "3"]]%string.
Definition ex_end : sheet -> sheet := fun s => mkS (s_table s) (s_name s) (s_nodes s ++ [Row [mkR true (Some 1024%Z) []]]).
Theorem C104_spill_refuted :
  flat_map ldml_writes (fst (jobs (ods_rows [ex_core; ex_notes; ex_posix]))) = [WText (lit "a/x") (lit "1"); WText (lit "a/b/c") (lit "2")]
  /\ flat_map ldml_writes (fst (jobs (ods_rows [ex_end ex_core; ex_notes; ex_posix]))) = [WText (lit "a/x") (lit "1"); WText (lit "b/c") (lit "2")].
Proof. split; vm_compute; reflexivity. Qed.
Example C104_ex_sheets : (forall s, In s [ex_end ex_core; ex_notes; ex_end ex_posix] -> counts s -> ends_blank s)
  /\ (forall s, In s [ex_end ex_core; ex_notes; ex_end ex_posix] -> snd (jobs (ods_rows [s])) = None).
Proof.
  split.
  - intros s H C. cbn [In] in H. destruct H as [<-|[<-|[<-|[]]]].
    + do 2 eexists. split; [reflexivity|]. left. reflexivity.
    + exfalso. apply read_sheet_spec in C. vm_compute in C. discriminate.
    + do 2 eexists. split; [reflexivity|]. left. reflexivity.
  - intros s H. cbn [In] in H. destruct H as [<-|[<-|[<-|[]]]]; vm_compute; reflexivity.
Qed.

(** * Filling in a spreadsheet *)
(** [kept s s']: only cells of rows of sheets that count may differ *)
Definition kept (s s' : sheet) : Prop :=
  s_table s' = s_table s /\ s_name s' = s_name s /\ (~ counts s -> s' = s) /\
  Forall2 (fun n n' => match n with Row _ => exists c, n' = Row c | Other => n' = Other end) (s_nodes s) (s_nodes s').

Section Fill.
  Variable find : pystr -> option found.
  Variable put : list rnode -> nat -> option pystr -> res (list rnode).

  Fixpoint cells_run (m : mode) (cs : list (list rnode)) : res (mode * list (list rnode)) :=
    match cs with
    | [] => Ok (m, [])
    | c :: cs' =>
        do mj <- step_row m (read_row c);
        do c' <- put_all put (flat_map (ods_writes find) (snd mj)) c;
        do r <- cells_run (fst mj) cs';
        Ok (fst r, c' :: snd r)
    end.
  Lemma cells_run_app a : forall m b m1 a' m2 b', cells_run m a = Ok (m1, a') -> cells_run m1 b = Ok (m2, b') ->
    cells_run m (a ++ b) = Ok (m2, a' ++ b').
  Proof.
    induction a as [|c a IH]; intros m b m1 a' m2 b' H1 H2; cbn [cells_run app] in *.
    - injection H1 as <- <-. exact H2.
    - destruct (step_row m (read_row c)) as [[m' js]|]; [|discriminate]. cbn [bind fst snd] in *.
      destruct (put_all put _ c) as [c'|]; [|discriminate]. cbn [bind] in *.
      destruct (cells_run m' a) as [[m3 a3]|] eqn:E; [|discriminate]. cbn [bind fst snd] in H1. injection H1 as -> <-.
      rewrite (IH _ _ _ _ _ _ E H2). reflexivity.
  Qed.
  Lemma nodes_cells ns : forall m m' ns', nodes_run find put m ns = Ok (m', ns') ->
    cells_run m (flat_map node_cells ns) = Ok (m', flat_map node_cells ns')
    /\ Forall2 (fun n n' => match n with Row _ => exists c, n' = Row c | Other => n' = Other end) ns ns'.
  Proof.
    induction ns as [|[c|] ns IH]; intros m m' ns' H; cbn [nodes_run] in H.
    - injection H as <- <-. split; [reflexivity|constructor].
    - cbn [flat_map node_cells app cells_run]. destruct (step_row m (read_row c)) as [[m1 js]|]; [|discriminate]. cbn [bind fst snd] in *.
      destruct (put_all put _ c) as [c'|]; [|discriminate]. cbn [bind] in *.
      destruct (nodes_run find put m1 ns) as [[m2 ns2]|] eqn:E; [|discriminate]. cbn [bind fst snd] in H. injection H as <- <-.
      destruct (IH _ _ _ E) as [E1 F]. rewrite E1. split; [reflexivity|]. constructor; [eauto|exact F].
    - destruct (nodes_run find put m ns) as [[m2 ns2]|] eqn:E; [|discriminate]. cbn [bind fst snd] in H. injection H as <- <-.
      destruct (IH _ _ _ E) as [E1 F]. split; [exact E1|]. constructor; [reflexivity|exact F].
  Qed.
  Lemma same_nodes ns : Forall2 (fun n n' => match n with Row _ => exists c, n' = Row c | Other => n' = Other end) ns ns.
  Proof. induction ns as [|[c|] ns IH]; constructor; eauto. Qed.
  Lemma doc_run_cells d : forall m d', doc_run find put m d = Ok d' ->
    (exists m', cells_run m (doc_cells d) = Ok (m', doc_cells d')) /\ Forall2 kept d d'.
  Proof.
    induction d as [|s d IH]; intros m d' H; cbn [doc_run] in H.
    - injection H as <-. split; [exists m; reflexivity|constructor].
    - unfold doc_cells. cbn [flat_map]. fold (doc_cells d). destruct (read_sheet s) eqn:C.
      + destruct (nodes_run find put m (s_nodes s)) as [[m1 ns]|] eqn:E; [|discriminate]. cbn [bind fst snd] in H.
        destruct (doc_run find put m1 d) as [d1|] eqn:E1; [|discriminate]. cbn [bind] in H. injection H as <-.
        destruct (nodes_cells _ _ _ _ E) as [H1 F]. destruct (IH _ _ E1) as [[m' H2] K].
        split.
        * exists m'. cbn [flat_map s_nodes]. unfold read_sheet in *. cbn [s_table s_name] in *. rewrite C.
          exact (cells_run_app _ _ _ _ _ _ _ H1 H2).
        * constructor; [|exact K]. unfold kept. cbn [s_table s_name s_nodes]. repeat split; auto.
          intro N. apply read_sheet_spec in C. contradiction.
      + destruct (doc_run find put m d) as [d1|] eqn:E1; [|discriminate]. cbn [bind] in H. injection H as <-.
        destruct (IH _ _ E1) as [[m' H2] K]. cbn [flat_map]. rewrite C. cbn [app]. split; [exists m'; exact H2|].
        constructor; [|exact K]. unfold kept. repeat split; auto. apply same_nodes.
  Qed.
  Lemma jobs_at_tail i js l : i < fst (hd (S i, JItem [] [] None) l) ->
    (forall x, In x l -> i < fst x) -> jobs_at i (map (pair i) js ++ l) = js.
  Proof.
    intros _ H. unfold jobs_at. rewrite filter_app, map_app.
    replace (filter (fun x => Nat.eqb (fst x) i) l) with (@nil (nat * job)).
    - rewrite app_nil_r. induction js as [|j js IH]; [reflexivity|]. cbn. rewrite Nat.eqb_refl. cbn. now rewrite IH.
    - symmetry. induction l as [|x l IH]; [reflexivity|]. cbn [filter].
      rewrite (proj2 (Nat.eqb_neq (fst x) i)) by (specialize (H x (or_introl eq_refl)); lia).
      apply IH. intros y Hy. apply H. now right.
  Qed.
  Lemma process_ge rows : forall i m x, In x (fst (process i m rows)) -> i <= fst x.
  Proof.
    induction rows as [|r rows IH]; intros i m x H; cbn [process] in H; [destruct H|].
    destruct (step_row m r) as [[m' js]|]; [|destruct H]. specialize (IH (S i) m' x).
    destruct (process (S i) m' rows) as [l e]. cbn [fst] in *. apply in_app_iff in H as [H|H].
    - apply in_map_iff in H as (j & <- & _). cbn. lia.
    - specialize (IH H). lia.
  Qed.
  Lemma jobs_at_app_lt i k js l : i < k -> jobs_at k (map (pair i) js ++ l) = jobs_at k l.
  Proof.
    intro L. unfold jobs_at. rewrite filter_app, map_app.
    replace (filter (fun x => Nat.eqb (fst x) k) (map (pair i) js)) with (@nil (nat * job)); [reflexivity|].
    symmetry. induction js as [|j js IH]; [reflexivity|]. cbn [map filter fst].
    rewrite (proj2 (Nat.eqb_neq i k)) by lia. exact IH.
  Qed.
  Lemma cells_jobs cs : forall i m m' cs', cells_run m cs = Ok (m', cs') ->
    snd (process i m (map read_row cs)) = None /\
    List.length cs' = List.length cs /\
    forall k c, nth_error cs k = Some c -> exists c', nth_error cs' k = Some c' /\
      put_all put (flat_map (ods_writes find) (jobs_at (i + k) (fst (process i m (map read_row cs))))) c = Ok c'.
  Proof.
    induction cs as [|c cs IH]; intros i m m' cs' H; cbn [cells_run] in H.
    - injection H as <- <-. split; [reflexivity|]. split; [reflexivity|]. intros [|k] c E; discriminate.
    - cbn [map process]. destruct (step_row m (read_row c)) as [[m1 js]|]; [|discriminate]. cbn [bind fst snd] in H.
      destruct (put_all put _ c) as [c'|] eqn:Ep; [|discriminate]. cbn [bind] in H.
      destruct (cells_run m1 cs) as [[m2 cs2]|] eqn:E; [|discriminate]. cbn [bind fst snd] in H. injection H as <- <-.
      destruct (IH (S i) _ _ _ E) as (H1 & H2 & H3).
      pose proof (process_ge (map read_row cs) (S i) m1) as G.
      destruct (process (S i) m1 (map read_row cs)) as [l e]. cbn [fst snd] in *.
      split; [exact H1|]. split; [cbn; congruence|]. intros [|k] c0 E0.
      + injection E0 as <-. exists c'. split; [reflexivity|]. rewrite Nat.add_0_r.
        rewrite jobs_at_tail; [exact Ep| |].
        * destruct l as [|x l]; cbn [hd]; [cbn; lia|]. apply (G x). now left.
        * intros x Hx. apply G in Hx. lia.
      + destruct (H3 k c0 E0) as (c1 & E1 & E2). exists c1. split; [exact E1|].
        rewrite jobs_at_app_lt by lia. now rewrite Nat.add_succ_r.
  Qed.
End Fill.
Lemma write_all_put put ws : forall row, write_all put ws row = put_all put ws row.
Proof.
  unfold write_all.
  assert (forall ws e, fold_left (fun r w => do row <- r; put row (fst w) (snd w)) ws (Raise e) = Raise e) as FR.
  { induction ws0 as [|w ws0 IH]; cbn; auto. }
  induction ws as [|[col v] ws IH]; intro row; cbn [fold_left put_all bind fst snd]; [reflexivity|].
  destruct (put row col v) as [row'|e]; cbn [bind]; [apply IH|apply FR].
Qed.
(** Filling in a spreadsheet: the rows have no error. Sheets that do not count stay, and of the others all but the
    cells. Every row has written into it what it asks for, and nothing else. *)
Theorem C104_filled : forall find put d d', doc_run find put Top d = Ok d' ->
  snd (jobs (ods_rows d)) = None /\ Forall2 kept d d' /\
  forall cs cs', doc_rows d cs -> doc_rows d' cs' -> List.length cs' = List.length cs /\
    forall i c, nth_error cs i = Some c -> exists c', nth_error cs' i = Some c' /\
      write_all put (flat_map (ods_writes find) (jobs_at i (fst (process 0 Top (ods_rows d))))) c = Ok c'.
Proof.
  intros find put d d' H. apply doc_run_cells in H as [[m' H] K].
  apply (cells_jobs _ _ _ 0) in H as (H1 & H2 & H3). rewrite <- ods_rows_cells in *.
  split; [exact H1|]. split; [exact K|]. intros cs cs' D D'. apply doc_rows_fun in D, D'. subst.
  split; [exact H2|]. intros i c E. destruct (H3 i c E) as (c' & E1 & E2). exists c'. split; [exact E1|].
  rewrite write_all_put. exact E2.
Qed.

(** * The files *)
Section Files.
  Variables file doc_ldml : Type.
  Variable read_tsv : file -> res (list (list pystr)).
  Variable load_ods : file -> res (list sheet).
  Variable read_ldml : file -> res doc_ldml.
  Variable empty_ldml : doc_ldml.
  Variable ensure : doc_ldml -> write -> res doc_ldml.
  Variable find : doc_ldml -> pystr -> option found.
  Variable put : list rnode -> nat -> option pystr -> res (list rnode).
  Variable normalise : doc_ldml -> res doc_ldml.
  Variable ldml_file : doc_ldml -> res file.
  Variable ods_file : list sheet -> file.
  Notation run := (sheetldml file doc_ldml read_tsv load_ods read_ldml empty_ldml ensure find put normalise ldml_file ods_file).

  (** At most one file changes: that of -o, or that of the LDML if there is no -o. None changes if the run
      fails before the LDML is written. *)
  Theorem C104_files : forall a fs o w name, run a fs = (o, w) ->
    after file fs w name <> after file fs None name ->
    match a_output a with
    | Some (c :: out) => o = Done /\ a_tsv a = false /\ name = c :: out
    | _ => name = a_ldml a /\ name <> [] /\
           (o = Done \/ (o = Failed /\ exists l e, ldml_file l = Raise e /\ after file fs w name = Some None))
    end.
  Proof.
    intros a fs o w name R N. unfold sheetldml in R.
    assert (forall n f, w = Some (n, f) -> name = n) as HN.
    { intros n f ->. cbn [after] in N. destruct (streq_spec name n) as [->|]; [reflexivity|]. now destruct N. }
    assert (w <> None) as HW by (intros ->; now apply N).
    destruct (a_output a) as [[|c out]|]; cbn [truthy] in R.
    2:{ destruct (a_tsv a); [injection R as _ <-; congruence|].
        destruct (bind _ _) as [d'|]; injection R as <- <-; [|congruence]. rewrite <- (HN _ _ eq_refl). auto. }
    all: destruct (bind _ _) as [l|]; [|injection R as _ <-; congruence].
    all: destruct (a_ldml a) as [|c n]; [injection R as _ <-; congruence|].
    all: destruct (normalise l) as [l'|]; [|injection R as _ <-; congruence].
    all: destruct (ldml_file l') as [f|e] eqn:E; injection R as <- <-; rewrite (HN _ _ eq_refl) in *;
         (split; [reflexivity|]; split; [discriminate|]); [now left|right; split; [reflexivity|]].
    all: exists l', e; split; [exact E|]; cbn [after]; now rewrite streq_refl.
  Qed.
  (** -t and -o together: nothing is read and nothing written. *)
  Theorem C104_both : forall a fs, a_tsv a = true -> (exists c out, a_output a = Some (c :: out)) -> run a fs = (ExitTwo, None).
  Proof. intros a fs T (c & out & E). unfold sheetldml. rewrite E, T. reflexivity. Qed.
  (** Without -o the LDML made depends on the sheet alone: it does not matter if there is such a file. *)
  Theorem C104_fresh : forall a fs fs', a_output a = None ->
    dget streq fs (a_sheet a) = dget streq fs' (a_sheet a) -> run a fs = run a fs'.
  Proof. intros a fs fs' O E. unfold sheetldml, input_rows, open_file. rewrite O. cbn [truthy]. now rewrite E. Qed.
  (** With -o the result is the spreadsheet with what the LDML has filled in. *)
  Theorem C104_output : forall a fs out f f' d l d',
    a_output a = Some out -> out <> [] -> a_tsv a = false -> a_sheet a <> [] -> a_ldml a <> [] ->
    dget streq fs (a_sheet a) = Some f -> load_ods f = Ok d ->
    dget streq fs (a_ldml a) = Some f' -> read_ldml f' = Ok l ->
    doc_run (find l) put Top d = Ok d' ->
    run a fs = (Done, Some (out, Some (ods_file d'))).
  Proof.
    intros a fs out f f' d l d' O NO T NS NL Ef Ed Ef' El R. unfold sheetldml, open_file. rewrite O.
    destruct out as [|c out]; [congruence|]. cbn [truthy]. rewrite T.
    destruct (a_ldml a) as [|c1 n1]; [congruence|]. rewrite Ef', El. cbn [bind].
    destruct (a_sheet a) as [|c2 n2]; [congruence|]. rewrite Ef. cbn [bind]. rewrite Ed. cbn [bind]. now rewrite R.
  Qed.
  (** Without -o: all that the rows ask for, in their order, in an empty document. *)
  Theorem C104_made : forall a fs rows l l' f,
    a_output a = None -> a_sheet a <> [] -> a_ldml a <> [] ->
    (if a_tsv a then exists f rs, dget streq fs (a_sheet a) = Some f /\ read_tsv f = Ok rs /\ rows = map (skipn 1) rs
     else exists f d, dget streq fs (a_sheet a) = Some f /\ load_ods f = Ok d /\ rows = ods_rows d) ->
    snd (jobs rows) = None ->
    fold_left (fun r w => do l <- r; ensure l w) (flat_map ldml_writes (fst (jobs rows))) (Ok empty_ldml) = Ok l ->
    normalise l = Ok l' -> ldml_file l' = Ok f ->
    run a fs = (Done, Some (a_ldml a, Some f)).
  Proof.
    intros a fs rows l l' f O NS NL I J F No W. unfold sheetldml. rewrite O. cbn [truthy].
    assert (input_rows file read_tsv load_ods a fs = Ok rows) as ->.
    { unfold input_rows, open_file. destruct (a_sheet a) as [|c n]; [congruence|].
      destruct (a_tsv a).
      - destruct I as (f0 & rs & -> & Er & ->). cbn [bind]. rewrite Er. cbn [bind]. reflexivity.
      - destruct I as (f0 & d & -> & Er & ->). cbn [bind]. now rewrite Er. }
    cbn [bind]. unfold jobs in *. destruct (process 0 Top rows) as [js e]. cbn [fst snd] in *. subst e.
    assert (flat_map (fun j : nat * job => ldml_writes (snd j)) js = flat_map ldml_writes (map snd js)) as ->.
    { clear. induction js as [|j js IH]; cbn; congruence. }
    assert (forall ws l0, fold_left (fun r w => do l <- r; ensure l w) ws (Ok l0) = ensure_all doc_ldml ensure l0 ws) as FE.
    { clear. assert (forall ws e, fold_left (fun r w => do l <- r; ensure l w) ws (Raise e) = Raise e) as FR.
      { induction ws as [|w ws IH]; cbn; auto. }
      induction ws as [|w ws IH]; intro l0; cbn [fold_left ensure_all bind]; [reflexivity|].
      destruct (ensure l0 w) as [l1|e]; cbn [bind]; [apply IH|apply FR]. }
    rewrite FE in F. rewrite F. cbn [bind]. destruct (a_ldml a) as [|c n]; [congruence|]. now rewrite No, W.
  Qed.
  (** A row with an error: the run fails and nothing is written, with -o and without. *)
  Theorem C104_row_error : forall a fs rows e,
    (if a_tsv a then exists f rs, dget streq fs (a_sheet a) = Some f /\ read_tsv f = Ok rs /\ rows = map (skipn 1) rs
     else exists f d, dget streq fs (a_sheet a) = Some f /\ load_ods f = Ok d /\ rows = ods_rows d) ->
    snd (jobs rows) = Some e -> (a_tsv a = true -> a_output a = None) ->
    run a fs = (Failed, None).
  Proof.
    intros a fs rows e I J O. unfold sheetldml.
    destruct (truthy (a_output a)) as [out|] eqn:T.
    - destruct (a_tsv a); [rewrite (O eq_refl) in T; discriminate|].
      destruct I as (f & d & Ef & Ed & ->). unfold open_file.
      destruct (match a_ldml a with [] => _ | _ => _ end) as [l|]; [|reflexivity]. cbn [bind].
      destruct (a_sheet a) as [|c n]; [reflexivity|]. rewrite Ef. cbn [bind]. rewrite Ed. cbn [bind].
      destruct (a_ldml a) as [|c1 n1].
      + unfold jobs in J. destruct (process 0 Top (ods_rows d)) as [js e0]. cbn [snd] in J. subst e0.
        now destruct (ensure_all _ _ _ _).
      + destruct (doc_run (find l) put Top d) as [d'|] eqn:R; [|reflexivity].
        apply C104_filled in R as [R _]. congruence.
    - assert (input_rows file read_tsv load_ods a fs = Ok rows \/ input_rows file read_tsv load_ods a fs = Raise AttributeError) as [-> | ->]; [| |reflexivity].
      { unfold input_rows, open_file. destruct (a_sheet a) as [|c n]; [now right|left].
        destruct (a_tsv a).
        - destruct I as (f0 & rs & -> & Er & ->). cbn [bind]. rewrite Er. reflexivity.
        - destruct I as (f0 & d & -> & Er & ->). cbn [bind]. now rewrite Er. }
      cbn [bind]. unfold jobs in J. destruct (process 0 Top rows) as [js e0]. cbn [snd] in J. subst e0.
      now destruct (ensure_all _ _ _ _).
  Qed.
  (** An empty name after -o is no -o: the LDML, meant to be read, is written over. *)
  Theorem C104_empty_output_refuted : forall a fs, a_output a = Some [] ->
    run a fs = run {| a_sheet := a_sheet a; a_ldml := a_ldml a; a_tsv := a_tsv a; a_output := None |} fs.
  Proof. intros a fs O. unfold sheetldml, input_rows. rewrite O. reflexivity. Qed.
  (** An LDML file that is not there is as an empty one: no error, and a spreadsheet is written. *)
  Theorem C104_missing_refuted : forall a fs out f d d',
    a_output a = Some out -> out <> [] -> a_tsv a = false -> a_sheet a <> [] -> a_ldml a <> [] ->
    dget streq fs (a_sheet a) = Some f -> load_ods f = Ok d ->
    dget streq fs (a_ldml a) = None ->
    (forall p, find empty_ldml p = None) -> snd (jobs (ods_rows d)) = None -> d' = d ->
    run a fs = (Done, Some (out, Some (ods_file d'))).
  Proof.
    intros a fs out f d d' O NO T NS NL Ef Ed Ef' Fe J ->. unfold sheetldml, open_file. rewrite O.
    destruct out as [|c out]; [congruence|]. cbn [truthy]. rewrite T.
    destruct (a_ldml a) as [|c1 n1]; [congruence|]. rewrite Ef'. cbn [bind].
    destruct (a_sheet a) as [|c2 n2]; [congruence|]. rewrite Ef. cbn [bind]. rewrite Ed. cbn [bind].
    assert (doc_run (find empty_ldml) put Top d = Ok d) as ->; [|reflexivity].
    assert (forall js, flat_map (ods_writes (find empty_ldml)) js = []) as FM.
    { induction js as [|j js IH]; [reflexivity|]. cbn [flat_map]. rewrite IH, app_nil_r.
      assert (forall A (g : A -> list (nat * option pystr)) l, (forall x, g x = []) -> flat_map g l = []) as FG.
      { intros A g l H. induction l as [|x l IHl]; [reflexivity|]. cbn. now rewrite H, IHl. }
      destruct j as [row p [at_|]|row p1 p2|row p1 p2 p3 hs|row p1 p2 p3 hs|row ps]; cbn [ods_writes]; unfold put_text; rewrite ?Fe; auto.
      - apply FG. intros [k h]. now rewrite Fe.
      - apply FG. intros [k h]. now rewrite Fe.
      - destruct (nth_error row 1) as [[|c0 i0]|]; auto. apply FG. intros [k [x y]]. now rewrite Fe. }
    clear -J FM.
    assert (forall ns m, snd (process 0 m (flat_map node_rows ns)) = None ->
              nodes_run (find empty_ldml) put m ns = Ok (end_mode m (flat_map node_rows ns), ns)) as HN.
    { induction ns as [|[c|] ns IH]; intros m H; cbn [flat_map node_rows app nodes_run end_mode process] in *; [reflexivity| |].
      - destruct (step_row m (read_row c)) as [[m1 js]|]; [|discriminate]. cbn [bind fst snd]. rewrite FM. cbn [put_all bind].
        assert (snd (process 0 m1 (flat_map node_rows ns)) = None) as H'.
        { rewrite (proj2 (process_shift _ 0 1 m1)). now destruct (process 1 m1 (flat_map node_rows ns)). }
        rewrite (IH _ H'). reflexivity.
      - rewrite (IH _ H). reflexivity. }
    unfold jobs in J. cbn [snd] in J. revert J. generalize Top as m.
    induction d as [|s d IH]; intros m J; cbn [doc_run]; [reflexivity|].
    unfold ods_rows in J. cbn [flat_map] in J. fold (ods_rows d) in J. destruct (read_sheet s) eqn:C.
    - assert (snd (process 0 m (flat_map node_rows (s_nodes s))) = None) as J1.
      { clear -J. revert m J. generalize 0 as i. generalize (flat_map node_rows (s_nodes s)) as a.
        induction a as [|r a IH]; intros i m J; [reflexivity|]. cbn [app process] in *.
        destruct (step_row m r) as [[m1 js]|]; [|discriminate].
        specialize (IH (S i) m1). destruct (process (S i) m1 (a ++ ods_rows d)). destruct (process (S i) m1 a). cbn [snd] in *. auto. }
      rewrite (HN _ _ J1). cbn [bind fst snd]. rewrite process_app in J by exact J1. cbn [snd] in J.
      rewrite IH; [cbn [bind]; now destruct s|].
      rewrite (proj2 (process_shift _ 0 (0 + List.length (flat_map node_rows (s_nodes s))) _)). exact J.
    - rewrite (IH _ J). reflexivity.
  Qed.
  (** An empty name of the sheet always fails. *)
  Theorem C104_no_sheet : forall a fs, a_sheet a = [] ->
    run a fs = (Failed, None) \/ run a fs = (ExitTwo, None).
  Proof.
    intros a fs E. unfold sheetldml, input_rows. rewrite E. destruct (truthy (a_output a)) as [out|].
    - destruct (a_tsv a); [now right|left]. destruct (match a_ldml a with [] => _ | _ => _ end); reflexivity.
    - left. reflexivity.
  Qed.
End Files.

(** * The hypotheses can be met *)
(** files hold one of these; LDML is the list of what was written *)
Inductive ex_file := FOds (d : list sheet) | FLdml (l : list write).
Definition ex_run := sheetldml ex_file (list write) (fun _ => Raise ValueError)
  (fun f => match f with FOds d => Ok d | _ => Raise ValueError end)
  (fun f => match f with FLdml l => Ok l | _ => Raise ValueError end) [] (fun l w => Ok (l ++ [w]))
  (fun l p => match List.find (fun w => match w with WText q _ => streq p q | _ => false end) l with
              | Some (WText _ v) => Some {| f_text := Some v; f_attrs := [] |} | _ => None end)
  (fun row col v => match v with Some v => write_item row (Z.of_nat col) v | None => Raise TypeError end)
  (fun l => Ok l) (fun l => Ok (FLdml l)) FOds.
Example C104_ex_made : ex_run {| a_sheet := lit "s.ods"; a_ldml := lit "l.xml"; a_tsv := false; a_output := None |}
    [(lit "s.ods", FOds [ex_end ex_core; ex_notes; ex_posix]); (lit "l.xml", FLdml [WText (lit "b/c") (lit "9")])]
  = (Done, Some (lit "l.xml", Some (FLdml [WText (lit "a/x") (lit "1"); WText (lit "b/c") (lit "2")]))).
Proof. vm_compute. reflexivity. Qed.
Example C104_ex_output : ex_run {| a_sheet := lit "s.ods"; a_ldml := lit "l.xml"; a_tsv := false; a_output := Some (lit "o.ods") |}
    [(lit "s.ods", FOds [ex_end ex_core; ex_notes; ex_posix]); (lit "l.xml", FLdml [WText (lit "b/c") (lit "9"); WText (lit "b/d") (lit "8")])]
  = (Done, Some (lit "o.ods", Some (FOds [ex_end ex_core; ex_notes; mkS true (Some (lit "Posix")) [txt_row ["b/c"; "see"; "9"]%string]]))).
Proof. vm_compute. reflexivity. Qed.
Example C104_ex_error : snd (jobs (ods_rows [ex_core; mkS true (Some (lit "Basic")) [txt_row [""]; txt_row ["b/c"; "see"]]%string])) = Some IndexError.
Proof. vm_compute. reflexivity. Qed.
