(** C45 and C57: writing into and reading from the rows of a spreadsheet. *)
From Coq Require Import String.
From Verif Require Import Py PyFacts M_Sheet.
Local Open Scope list_scope.
Local Open Scope Z_scope.

(** * Specification *)

(** the columns a row stands for: each cell as often as it is repeated *)
Definition columns (row : list rnode) : list (list para) :=
  flat_map (fun n => if n_cell n then repeat (n_kids n) (Z.to_nat (repcount n)) else []) row.
(** what the columns show *)
Definition texts (row : list rnode) : list pystr := map cell_text (columns row).
(** every cell stands for at least one column *)
Definition positive (row : list rnode) : Prop := forall n, In n row -> n_cell n = true -> 1 <= repcount n.
(** column [col], counted from one, belongs to the cell [n] *)
Definition in_column (row : list rnode) (col : Z) (n : rnode) : Prop :=
  exists pre post, row = pre ++ n :: post /\ n_cell n = true /\
    Z.of_nat (List.length (columns pre)) < col <= Z.of_nat (List.length (columns pre)) + repcount n.
(** an empty cell, or one that begins with a paragraph that begins with text *)
Definition simple (kids : list para) : Prop :=
  kids = [] \/ exists s r ps, kids = Para true (Txt s :: r) :: ps.
(** a list with the item at a place replaced *)
Definition replaced {A} (l : list A) (k : nat) (x : A) : list A := firstn k l ++ x :: skipn (S k) l.
Definition place (col : Z) : nat := (Z.to_nat col - 1)%nat.
(** a row in which only empty cells are repeated *)
Definition tidy (row : list rnode) : Prop :=
  forall n, In n row -> n_cell n = true ->
    1 <= repcount n /\ simple (n_kids n) /\ (n_kids n = [] \/ repcount n = 1).

(** * Finding the cell *)
Lemma columns_app a b : columns (a ++ b) = columns a ++ columns b.
Proof. apply flat_map_app. Qed.
Lemma columns_cell n : n_cell n = true -> columns [n] = repeat (n_kids n) (Z.to_nat (repcount n)).
Proof. intros H. unfold columns. cbn [flat_map]. rewrite H. apply app_nil_r. Qed.
Lemma columns_other n : n_cell n = false -> columns [n] = [].
Proof. intros H. unfold columns. cbn [flat_map]. rewrite H. reflexivity. Qed.
Lemma columns_cons n row : columns (n :: row) = columns [n] ++ columns row.
Proof. apply (columns_app [n] row). Qed.

Definition cols (row : list rnode) : Z := Z.of_nat (List.length (columns row)).
Lemma cols_app a b : cols (a ++ b) = cols a + cols b.
Proof. unfold cols. rewrite columns_app, app_length. lia. Qed.
Lemma cols_cell n : n_cell n = true -> 1 <= repcount n -> cols [n] = repcount n.
Proof. intros H P. unfold cols. rewrite columns_cell by assumption. rewrite repeat_length. lia. Qed.
Lemma cols_other n : n_cell n = false -> cols [n] = 0.
Proof. intros H. unfold cols. rewrite columns_other by assumption. reflexivity. Qed.

Lemma locate_found target pre0 done row c post :
  positive (done ++ row) ->
  (exists m, row = m ++ c :: post /\ n_cell c = true /\
    cols (done ++ m) < target <= cols (done ++ m) + repcount c /\ pre0 = done ++ m) ->
  locate target (cols done) done row = Some (pre0, c, post, cols pre0).
Proof.
  revert done; induction row as [|n row IH]; intros done P (m & E & Hc & Ht & ->).
  - destruct m; discriminate.
  - cbn [locate]. destruct m as [|n' m]; cbn [app] in E.
    + injection E as -> ->. rewrite Hc. rewrite app_nil_r in Ht |- *.
      destruct (Z.leb_spec target (cols done + repcount c)); [reflexivity|lia].
    + injection E as -> E.
      assert (P' : positive ((done ++ [n']) ++ row)) by (rewrite <- app_assoc; exact P).
      assert (G : exists m0, row = m0 ++ c :: post /\ n_cell c = true /\
        cols ((done ++ [n']) ++ m0) < target <= cols ((done ++ [n']) ++ m0) + repcount c /\ done ++ n' :: m = (done ++ [n']) ++ m0).
      { exists m. rewrite <- !app_assoc. cbn [app]. auto. }
      destruct (n_cell n') eqn:Hn.
      * assert (P1 : 1 <= repcount n').
        { apply P; [apply in_or_app; right; left; reflexivity|assumption]. }
        assert (C1 : cols (done ++ n' :: m) = cols done + repcount n' + cols m).
        { change (n' :: m) with ([n'] ++ m). rewrite !cols_app, (cols_cell n') by assumption. lia. }
        destruct (Z.leb_spec target (cols done + repcount n')) as [L|L].
        { assert (0 <= cols m) by (unfold cols; lia). lia. }
        rewrite <- (cols_cell n') by assumption. rewrite <- cols_app. apply IH; assumption.
      * rewrite <- (Z.add_0_r (cols done)). rewrite <- (cols_other n') by assumption. rewrite <- cols_app.
        apply IH; assumption.
Qed.

Lemma repeat_split {A} (x : A) a b : repeat x (a + b) = repeat x a ++ repeat x b.
Proof. apply repeat_app. Qed.

(** ** C45: what is written, in every case: the run of the cell is divided, the columns
    before and after in the run become empty, and the cell keeps the one column *)
Theorem C45_divides row col v pre n post :
  positive row -> row = pre ++ n :: post -> n_cell n = true -> cols pre < col <= cols pre + repcount n ->
  write_item row col v =
    do ks <- set_value (n_kids n) v;
    Ok (pre ++ (if 0 <? col - cols pre - 1 then [empty_cells (col - cols pre - 1)] else []) ++
        [mkR true (if 0 <? cols pre + repcount n - col then Some 1
                   else if 0 <? col - cols pre - 1 then Some (cols pre + repcount n - col + 1) else n_rep n) ks] ++
        (if 0 <? cols pre + repcount n - col then [empty_cells (cols pre + repcount n - col)] else []) ++ post).
Proof.
  intros P E Hc Ht. unfold write_item. change 0 with (cols []) at 1.
  rewrite (locate_found col pre [] row n post).
  - unfold put. rewrite Hc. reflexivity.
  - exact P.
  - exists pre. cbn [app]. auto.
Qed.

Lemma columns_put (pre : list rnode) n post col ks :
  1 <= repcount n -> cols pre < col <= cols pre + repcount n ->
  let cb := col - cols pre - 1 in let ca := cols pre + repcount n - col in
  columns (pre ++ (if 0 <? cb then [empty_cells cb] else []) ++
        [mkR true (if 0 <? ca then Some 1 else if 0 <? cb then Some (ca + 1) else n_rep n) ks] ++
        (if 0 <? ca then [empty_cells ca] else []) ++ post) =
  columns pre ++ repeat [] (Z.to_nat cb) ++ ks :: repeat [] (Z.to_nat ca) ++ columns post.
Proof.
  intros P Ht cb ca. rewrite !columns_app. f_equal.
  assert (E1 : columns (if 0 <? cb then [empty_cells cb] else []) = repeat [] (Z.to_nat cb)).
  { destruct (Z.ltb_spec 0 cb) as [L|L].
    - rewrite columns_cell by reflexivity. reflexivity.
    - replace cb with 0 by lia. reflexivity. }
  assert (E2 : columns (if 0 <? ca then [empty_cells ca] else []) = repeat [] (Z.to_nat ca)).
  { destruct (Z.ltb_spec 0 ca) as [L|L].
    - rewrite columns_cell by reflexivity. reflexivity.
    - replace ca with 0 by lia. reflexivity. }
  rewrite E1, E2. f_equal. rewrite columns_cell by reflexivity. cbn [n_kids]. unfold repcount at 1. cbn [n_rep].
  assert (E3 : Z.to_nat match (if 0 <? ca then Some 1 else if 0 <? cb then Some (ca + 1) else n_rep n) with Some z => z | None => 1 end = 1%nat).
  { destruct (Z.ltb_spec 0 ca); [reflexivity|]. destruct (Z.ltb_spec 0 cb); [lia|].
    fold (repcount n). lia. }
  rewrite E3. reflexivity.
Qed.

Lemma set_value_simple kids v : simple kids -> exists ks, set_value kids v = Ok ks /\ simple ks /\ cell_text ks = v /\ ks <> [].
Proof.
  intros [->|(s & r & ps & ->)]; cbn [set_value]; eexists; (split; [reflexivity|]); cbn.
  - split; [right; exists v, [], []; reflexivity|]. split; [reflexivity|discriminate].
  - split; [right; exists v, r, ps; reflexivity|]. split; [reflexivity|discriminate].
Qed.

(** ** C45: a cell that is empty, or not repeated *)
Theorem C45_write row col v n :
  positive row -> in_column row col n -> simple (n_kids n) -> (n_kids n = [] \/ repcount n = 1) ->
  exists row' ks, write_item row col v = Ok row' /\ positive row' /\
    columns row' = replaced (columns row) (place col) ks /\
    List.length (columns row') = List.length (columns row) /\
    simple ks /\ cell_text ks = v.
Proof.
  intros P (pre & post & E & Hc & Ht) Sm R. fold (cols pre) in Ht.
  rewrite (C45_divides row col v pre n post P E Hc Ht).
  destruct (set_value_simple _ v Sm) as (ks & -> & Sk & Ek & _). cbn [bind].
  assert (P1 : 1 <= repcount n) by (apply P; [rewrite E; apply in_or_app; right; left; reflexivity|assumption]).
  eexists; exists ks. split; [reflexivity|].
  pose proof (columns_put pre n post col ks P1 Ht) as C. cbv zeta in C.
  assert (Hrep : columns row = columns pre ++ repeat (n_kids n) (Z.to_nat (repcount n)) ++ columns post).
  { rewrite E, columns_app, columns_cons, columns_cell by assumption. reflexivity. }
  assert (Hr2 : columns row = (columns pre ++ repeat [] (Z.to_nat (col - cols pre - 1))) ++ n_kids n ::
      repeat [] (Z.to_nat (cols pre + repcount n - col)) ++ columns post).
  { rewrite Hrep. rewrite <- app_assoc. f_equal. destruct R as [->|R].
    - replace (Z.to_nat (repcount n)) with (Z.to_nat (col - cols pre - 1) + (1 + Z.to_nat (cols pre + repcount n - col)))%nat by lia.
      rewrite !repeat_split, <- !app_assoc. reflexivity.
    - rewrite R. replace (Z.to_nat (col - cols pre - 1)) with 0%nat by lia.
      replace (Z.to_nat (cols pre + 1 - col)) with 0%nat by lia. reflexivity. }
  assert (Hp : place col = List.length (columns pre ++ repeat (@nil para) (Z.to_nat (col - cols pre - 1)))).
  { rewrite app_length, repeat_length. unfold place, cols in *. lia. }
  split; [|split; [|split; [|auto]]].
  - intros m Hm Hcm. apply in_app_or in Hm. destruct Hm as [Hm|Hm].
    { apply P; [rewrite E; apply in_or_app; left; assumption|assumption]. }
    apply in_app_or in Hm. destruct Hm as [Hm|Hm].
    { destruct (Z.ltb_spec 0 (col - cols pre - 1)); [|destruct Hm]. destruct Hm as [<-|[]]. unfold empty_cells. unfold repcount at 1. cbn [n_rep]. lia. }
    apply in_app_or in Hm. destruct Hm as [[<-|[]]|Hm].
    { unfold repcount at 1. cbn [n_rep]. destruct (Z.ltb_spec 0 (cols pre + repcount n - col)); [lia|].
      destruct (Z.ltb_spec 0 (col - cols pre - 1)); [lia|]. fold (repcount n). assumption. }
    apply in_app_or in Hm. destruct Hm as [Hm|Hm].
    { destruct (Z.ltb_spec 0 (cols pre + repcount n - col)); [|destruct Hm]. destruct Hm as [<-|[]]. unfold empty_cells. unfold repcount at 1. cbn [n_rep]. lia. }
    apply P; [rewrite E; apply in_or_app; right; right; assumption|assumption].
  - rewrite C, Hr2. unfold replaced. rewrite Hp.
    rewrite firstn_app, Nat.sub_diag, firstn_O, app_nil_r, firstn_all.
    rewrite skipn_app. rewrite skipn_all2 by lia.
    replace (S (List.length (columns pre ++ repeat (@nil para) (Z.to_nat (col - cols pre - 1)))) -
      List.length (columns pre ++ repeat (@nil para) (Z.to_nat (col - cols pre - 1))))%nat with 1%nat by lia.
    cbn [skipn app]. rewrite <- app_assoc. reflexivity.
  - rewrite C, Hr2. rewrite !app_length. cbn [List.length]. rewrite !app_length. lia.
Qed.

(** ** C45: any number of writes into a row in which only empty cells are repeated *)
Fixpoint write_all (ws : list (Z * pystr)) (row : list rnode) : res (list rnode) :=
  match ws with
  | [] => Ok row
  | (col, v) :: ws' => do row' <- write_item row col v; write_all ws' row'
  end.

Lemma find_column row col : positive row -> 1 <= col <= cols row -> exists n, in_column row col n.
Proof.
  intros P H. assert (G : forall done row, positive (done ++ row) -> cols done < col <= cols (done ++ row) -> exists n, in_column (done ++ row) col n).
  { clear. intros done row; revert done; induction row as [|n row IH]; intros done P H.
    - rewrite app_nil_r in H. lia.
    - assert (Ea : done ++ n :: row = (done ++ [n]) ++ row) by (rewrite <- app_assoc; reflexivity).
      destruct (n_cell n) eqn:Hc.
      + assert (P1 : 1 <= repcount n) by (apply P; [apply in_or_app; right; left; reflexivity|assumption]).
        destruct (Z.le_gt_cases col (cols done + repcount n)) as [L|L].
        * exists n, done, row. fold (cols done). repeat split; auto; lia.
        * rewrite Ea in P, H |- *. apply IH; [assumption|]. rewrite (cols_app done [n]), cols_cell by assumption. lia.
      + rewrite Ea in P, H |- *. apply IH; [assumption|]. rewrite (cols_app done [n]), cols_other by assumption. lia. }
  apply (G [] row); [assumption|]. cbn [app]. unfold cols at 1. cbn. lia.
Qed.

Lemma in_column_In row col n : in_column row col n -> In n row /\ n_cell n = true.
Proof. intros (pre & post & -> & H & _). split; [apply in_or_app; right; left; reflexivity|assumption]. Qed.

Lemma write_tidy row col v : tidy row -> 1 <= col <= cols row ->
  exists row', write_item row col v = Ok row' /\ tidy row' /\ cols row' = cols row /\
    texts row' = replaced (texts row) (place col) v.
Proof.
  intros T H. assert (P : positive row) by (intros n Hn Hc; apply (T n Hn Hc)).
  destruct (find_column row col P H) as (n & Hn). pose proof (in_column_In _ _ _ Hn) as [Hi Hc].
  destruct (T n Hi Hc) as (P1 & S & R).
  destruct (C45_write row col v n P Hn S R) as (row' & ks & W & P' & C & L & Sk & Ek).
  exists row'. split; [assumption|]. split; [|split].
  - destruct Hn as (pre & post & E & _ & Ht). fold (cols pre) in Ht.
    rewrite (C45_divides row col v pre n post P E Hc Ht) in W.
    destruct (set_value_simple _ v S) as (ks2 & Es & Sk2 & _ & _). rewrite Es in W. cbn [bind] in W. injection W as <-.
    intros m Hm Hcm. specialize (P' m Hm Hcm). split; [assumption|].
    apply in_app_or in Hm. destruct Hm as [Hm|Hm].
    { apply (T m); [rewrite E; apply in_or_app; left; assumption|assumption]. }
    apply in_app_or in Hm. destruct Hm as [Hm|Hm].
    { destruct (Z.ltb_spec 0 (col - cols pre - 1)); [|destruct Hm]. destruct Hm as [<-|[]]. split; left; reflexivity. }
    destruct Hm as [<-|Hm].
    { split; [exact Sk2|]. right. unfold repcount at 1. cbn [n_rep].
      destruct (Z.ltb_spec 0 (cols pre + repcount n - col)); [reflexivity|].
      destruct (Z.ltb_spec 0 (col - cols pre - 1)); [lia|]. fold (repcount n). lia. }
    apply in_app_or in Hm. destruct Hm as [Hm|Hm].
    { destruct (Z.ltb_spec 0 (cols pre + repcount n - col)); [|destruct Hm]. destruct Hm as [<-|[]]. split; left; reflexivity. }
    apply (T m); [rewrite E; apply in_or_app; right; right; assumption|assumption].
  - unfold cols. rewrite L. reflexivity.
  - unfold texts. rewrite C. unfold replaced. rewrite map_app. cbn [map]. rewrite Ek, firstn_map, skipn_map. reflexivity.
Qed.

Theorem C45_sequence ws row :
  tidy row -> Forall (fun w => 1 <= fst w <= cols row) ws ->
  exists row', write_all ws row = Ok row' /\ tidy row' /\ cols row' = cols row /\
    texts row' = fold_left (fun t w => replaced t (place (fst w)) (snd w)) ws (texts row).
Proof.
  revert row; induction ws as [|[col v] ws IH]; intros row T H; cbn [write_all fold_left].
  - exists row. auto.
  - inversion H as [|? ? Hc H']; subst. cbn [fst snd] in *.
    destruct (write_tidy row col v T Hc) as (row1 & -> & T1 & W1 & X1). cbn [bind].
    destruct (IH row1 T1) as (row' & E & T' & W' & X'); [rewrite W1; assumption|].
    exists row'. rewrite X', X1, W', W1. auto.
Qed.

(** ** C45: findings *)
(** a repeated cell with content loses its other columns *)
Theorem C45_repeated_refuted : exists row col v n row',
  positive row /\ in_column row col n /\ simple (n_kids n) /\ write_item row col v = Ok row' /\
  exists j, j <> place col /\ nth_error (texts row') j <> nth_error (texts row) j.
Proof.
  set (n := mkR true (Some 3) [Para true [Txt (lit "a")]]).
  exists [n], 2, (lit "b"), n. eexists. split; [|split; [|split; [|split; [reflexivity|]]]].
  - intros m [<-|[]] _. unfold repcount. cbn. lia.
  - exists [], []. unfold repcount. cbn. repeat split; lia.
  - right. exists (lit "a"), [], []. reflexivity.
  - exists 0%nat. split; [discriminate|]. vm_compute. discriminate.
Qed.

(** the column after the last one: the value goes into the last column instead *)
Lemma locate_beyond target cur pre row : positive row -> cur + cols row < target -> locate target cur pre row = None.
Proof.
  revert cur pre; induction row as [|n row IH]; intros cur pre P H; cbn [locate]; [reflexivity|].
  change (n :: row) with ([n] ++ row) in H. rewrite cols_app in H.
  assert (P' : positive row) by (intros m Hm; apply P; right; assumption).
  destruct (n_cell n) eqn:Hc.
  - rewrite cols_cell in H by (try apply P; auto; left; reflexivity).
    destruct (Z.leb_spec target (cur + repcount n)); [unfold cols in *; lia|]. apply IH; [assumption|lia].
  - rewrite cols_other in H by assumption. apply IH; [assumption|lia].
Qed.
Lemma width_cols row : positive row -> width row = cols row.
Proof.
  intros P. unfold width. assert (G : forall a, fold_left (fun a n => if n_cell n then a + repcount n else a) row a = a + cols row).
  { induction row as [|n row IH]; intros a; cbn [fold_left]; [unfold cols; cbn; lia|].
    rewrite IH by (intros m Hm; apply P; right; assumption).
    change (n :: row) with ([n] ++ row). rewrite cols_app.
    destruct (n_cell n) eqn:Hc; [rewrite cols_cell by (try apply P; auto; left; reflexivity)|rewrite cols_other by assumption]; lia. }
  rewrite G. lia.
Qed.
Theorem C45_beyond pre n v :
  positive (pre ++ [n]) -> n_cell n = true -> repcount n = 1 ->
  write_item (pre ++ [n]) (cols (pre ++ [n]) + 1) v = write_item (pre ++ [n]) (cols (pre ++ [n])) v.
Proof.
  intros P Hc R.
  assert (Cn : cols (pre ++ [n]) = cols pre + 1) by (rewrite cols_app, cols_cell by (assumption || lia); lia).
  rewrite (C45_divides (pre ++ [n]) (cols (pre ++ [n])) v pre n [] P eq_refl Hc) by lia.
  unfold write_item. rewrite locate_beyond by (assumption || lia).
  rewrite rev_app_distr. cbn [rev app]. unfold last_count. rewrite fold_left_app. cbn [fold_left]. rewrite Hc.
  rewrite width_cols by assumption. rewrite rev_involutive. unfold put. rewrite Hc, R, Cn.
  replace (cols pre + 1 + 1 - (cols pre + 1) - 1) with 0 by lia.
  replace (cols pre + 1 + 1 - (cols pre + 1 + 1)) with 0 by lia.
  replace (cols pre + 1 - cols pre - 1) with 0 by lia.
  replace (cols pre + 1 - (cols pre + 1)) with 0 by lia. reflexivity.
Qed.

(** * C57: reading *)

(** what a cell shows to the reader: the first text node of its first paragraph, or nothing *)
Definition shows (kids : list para) (t : pystr) : Prop :=
  (exists others ks more a b, kids = others ++ Para true ks :: more /\
     Forall (fun p => exists ks', p = Para false ks') others /\
     ks = a ++ Txt t :: b /\ Forall (fun i => i = Inline) a) \/
  (t = [] /\ exists others ks more, kids = others ++ Para true ks :: more /\
     Forall (fun p => exists ks', p = Para false ks') others /\ Forall (fun i => i = Inline) ks) \/
  (t = [] /\ Forall (fun p => exists ks', p = Para false ks') kids).
Lemma first_txt_cases ks :
  (exists a t b, ks = a ++ Txt t :: b /\ Forall (fun i => i = Inline) a /\ first_txt ks = t) \/
  (Forall (fun i => i = Inline) ks /\ first_txt ks = []).
Proof.
  induction ks as [|[s|] ks IH]; cbn [first_txt].
  - right. split; [constructor|reflexivity].
  - left. exists [], s, ks. split; [reflexivity|]. split; [constructor|reflexivity].
  - destruct IH as [(a & t & b & -> & H & E)|[H E]].
    + left. exists (Inline :: a), t, b. split; [reflexivity|]. split; [constructor; auto|assumption].
    + right. split; [constructor; auto|assumption].
Qed.
Theorem C57_shows kids : shows kids (cell_text kids).
Proof.
  induction kids as [|[p ks] kids IH]; cbn [cell_text].
  - right. right. split; [reflexivity|constructor].
  - destruct p.
    + destruct (first_txt_cases ks) as [(a & t & b & E & H & ->)|[H ->]].
      * left. exists [], ks, kids, a, b. split; [reflexivity|]. split; [constructor|]. auto.
      * right. left. split; [reflexivity|]. exists [], ks, kids. split; [reflexivity|]. split; [constructor|assumption].
    + destruct IH as [(o & ks' & more & a & b & -> & H & E & Ha)|[(E & o & ks' & more & -> & H & Hk)|[E H]]].
      * left. exists (Para false ks :: o), ks', more, a, b. split; [reflexivity|]. split; [constructor; eauto|]. auto.
      * right. left. split; [assumption|]. exists (Para false ks :: o), ks', more.
        split; [reflexivity|]. split; [constructor; eauto|]. auto.
      * right. right. split; [assumption|]. constructor; eauto.
Qed.

Definition short (n : rnode) : Prop := n_cell n = true -> 1 <= repcount n < 10.

Lemma read_short n : short n -> read_node n = texts [n].
Proof.
  unfold read_node, texts, short. destruct (n_cell n) eqn:Hc; intros H.
  - rewrite columns_cell by assumption. specialize (H eq_refl). unfold repcount in *.
    destruct (n_rep n) as [z|]; [|reflexivity].
    destruct (Z.ltb_spec z 10); [|lia]. induction (Z.to_nat z) as [|k IHk]; cbn [repeat map]; [reflexivity|rewrite <- IHk; reflexivity].
  - rewrite columns_other by assumption. reflexivity.
Qed.
Lemma texts_app a b : texts (a ++ b) = texts a ++ texts b.
Proof. unfold texts. rewrite columns_app, map_app. reflexivity. Qed.

Lemma read_shorts row : Forall short row -> flat_map read_node row = texts row.
Proof.
  intros H; induction H as [|n row Hn H IH]; [reflexivity|].
  cbn [flat_map]. rewrite IH, read_short by assumption. rewrite <- texts_app. reflexivity.
Qed.

(** ** C57: a row whose runs are all shorter than ten columns is read column by column *)
Theorem C57_read row : Forall short row -> read_row row = tl (texts row).
Proof. intros H. unfold read_row. rewrite read_shorts by assumption. reflexivity. Qed.

(** a long run at the end is read as one column *)
Theorem C57_read_tail pre n : Forall short pre -> n_cell n = true -> 10 <= repcount n ->
  read_row (pre ++ [n]) = tl (firstn (List.length (texts pre) + 1) (texts (pre ++ [n]))).
Proof.
  intros H Hc R. unfold read_row. rewrite flat_map_app, read_shorts by assumption.
  rewrite texts_app, firstn_app. rewrite firstn_all2 by lia.
  replace (List.length (texts pre) + 1 - List.length (texts pre))%nat with 1%nat by lia. f_equal. f_equal.
  cbn [flat_map]. rewrite app_nil_r. unfold read_node, texts. rewrite Hc, columns_cell by assumption.
  unfold repcount in *. destruct (n_rep n) as [z|]; [|lia].
  destruct (Z.ltb_spec z 10); [lia|]. destruct (Z.to_nat z) eqn:Ez; [lia|]. reflexivity.
Qed.

(** ** C57: a value written is read back from its column, and the others as before *)
Theorem C57_roundtrip row col v :
  tidy row -> Forall short row -> 2 <= col <= cols row ->
  exists row', write_item row col v = Ok row' /\ Forall short row' /\
    read_row row' = replaced (read_row row) (Z.to_nat col - 2) v.
Proof.
  intros T Sm H. destruct (write_tidy row col v T) as (row' & W & T' & C & X); [lia|].
  exists row'. split; [assumption|].
  assert (S' : Forall short row').
  { assert (P : positive row) by (intros n Hn Hc; apply (T n Hn Hc)).
    destruct (find_column row col P ltac:(lia)) as (n & Hn). pose proof (in_column_In _ _ _ Hn) as [Hi Hc].
    destruct (T n Hi Hc) as (P1 & Sn & R). destruct Hn as (pre & post & E & _ & Ht). fold (cols pre) in Ht.
    rewrite (C45_divides row col v pre n post P E Hc Ht) in W.
    destruct (set_value_simple _ v Sn) as (ks2 & Es & _). rewrite Es in W. cbn [bind] in W. injection W as <-.
    rewrite Forall_forall in Sm. pose proof (Sm n Hi Hc) as Sh. rewrite Forall_forall. intros m Hm Hcm.
    split; [apply (T' m Hm Hcm)|].
    apply in_app_or in Hm. destruct Hm as [Hm|Hm].
    { apply Sm; [rewrite E; apply in_or_app; left; assumption|assumption]. }
    apply in_app_or in Hm. destruct Hm as [Hm|Hm].
    { destruct (Z.ltb_spec 0 (col - cols pre - 1)); [|destruct Hm]. destruct Hm as [<-|[]]. unfold empty_cells. unfold repcount at 1. cbn [n_rep]. lia. }
    destruct Hm as [<-|Hm].
    { unfold repcount at 1. cbn [n_rep]. destruct (Z.ltb_spec 0 (cols pre + repcount n - col)); [lia|].
      destruct (Z.ltb_spec 0 (col - cols pre - 1)); [lia|]. fold (repcount n). lia. }
    apply in_app_or in Hm. destruct Hm as [Hm|Hm].
    { destruct (Z.ltb_spec 0 (cols pre + repcount n - col)); [|destruct Hm]. destruct Hm as [<-|[]]. unfold empty_cells. unfold repcount at 1. cbn [n_rep]. lia. }
    apply Sm; [rewrite E; apply in_or_app; right; right; assumption|assumption]. }
  split; [assumption|]. rewrite !C57_read by assumption. rewrite X.
  unfold replaced, place. replace (Z.to_nat col - 1)%nat with (S (Z.to_nat col - 2)) by lia.
  destruct (texts row) as [|t ts] eqn:Et.
  - exfalso. unfold cols in H. unfold texts in Et. apply map_eq_nil in Et. rewrite Et in H. cbn in H. lia.
  - reflexivity.
Qed.

(** in general not: a run of ten or more columns before the value moves it *)
Theorem C57_refuted : exists row col v row',
  tidy row /\ 2 <= col <= cols row /\ write_item row col v = Ok row' /\
  nth_error (read_row row') (Z.to_nat col - 2) <> Some v.
Proof.
  exists [mkR true None [Para true [Txt (lit "a")]]; mkR true (Some 1000) []], 20, (lit "b").
  eexists. split; [|split; [|split; [reflexivity|]]].
  - intros n [<-|[<-|[]]] _; unfold repcount; cbn [n_rep n_kids].
    + split; [lia|]. split; [right; exists (lit "a"), [], []; reflexivity|right; reflexivity].
    + split; [lia|]. split; left; reflexivity.
  - vm_compute. split; intros H; discriminate.
  - vm_compute. discriminate.
Qed.

(** * Examples *)
Section Examples.
  Let a := mkR true None [Para true [Txt (lit "a")]].
  Let gap := mkR true (Some 5) [].
  Let row := [a; gap; mkR false (Some 2) []; a].
  Example C45_example_tidy : tidy row /\ Forall short row /\ cols row = 7.
  Proof.
    split; [|split].
    - intros n [<-|[<-|[<-|[<-|[]]]]]; cbn [n_cell a gap]; try discriminate; intros _; unfold repcount; cbn [n_rep n_kids];
        (split; [cbn; lia|]); (split; [try (left; reflexivity); right; exists (lit "a"), [], []; reflexivity|]); auto.
    - repeat constructor; unfold short, repcount; cbn; try discriminate; lia.
    - vm_compute. reflexivity.
  Qed.
  Example C45_example_write :
    write_item row 4 (lit "b") =
    Ok [a; mkR true (Some 2) []; mkR true (Some 1) [Para true [Txt (lit "b")]]; mkR true (Some 2) []; mkR false (Some 2) []; a].
  Proof. vm_compute. reflexivity. Qed.
  Example C45_example_read : read_row row = [[]; []; []; []; []; lit "a"].
  Proof. vm_compute. reflexivity. Qed.
  Example C57_example_tail : read_row [a; mkR true (Some 1000) []] = [[]].
  Proof. vm_compute. reflexivity. Qed.
End Examples.
