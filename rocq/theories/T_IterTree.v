(** C80, second part: what is loaded in chunks, with the loop running behind the builder on
    shared elements, is what M_TreeBuilder says of the finished tree. *)
From Coq Require Import String Lia Bool.
From Verif Require Import Py PyFacts M_TreeBuilder T_TreeBuilder T_Reader M_IterParse T_IterParse.
Local Open Scope list_scope.
Local Open Scope nat_scope.

(** [lia] with only the facts about numbers in view *)
Ltac qlia :=
  repeat match goal with H := _ |- _ => clearbody H end;
  repeat match goal with
         | H : ?T |- _ =>
             lazymatch T with
             | _ < _ => fail
             | _ <= _ => fail
             | _ <= _ < _ => fail
             | @eq nat _ _ => fail
             | ~ (@eq nat _ _) => fail
             | nat => fail
             | _ \/ _ => fail
             | _ => clear H
             end
         end; lia.

Section Tree.
Variable up : bool.

(** ** Builder and loop in step *)
Fixpoint lock (b : bst) (rd : reader) (os : list op) : res (bst * reader) :=
  match os with
  | [] => Ok (b, rd)
  | o :: os' =>
      do (b1, q) <- b_op b o;
      do (b2, rd2) <- r_run up b1 rd q;
      lock b2 rd2 os'
  end.
Lemma lock_app : forall os os' b rd, lock b rd (os ++ os') = do (b1, rd1) <- lock b rd os; lock b1 rd1 os'.
Proof.
  induction os as [|o os IH]; intros os' b rd; cbn [app lock]; [reflexivity |].
  destruct (b_op b o) as [[b1 q]|e]; cbn [bind]; [| reflexivity].
  destruct (r_run up b1 rd q) as [[b2 rd2]|e]; cbn [bind]; [apply IH | reflexivity].
Qed.
Lemma lock_all : forall os b b' rd out, Inv b [] rd -> b_ops b os = Ok (b', out) -> r_run up b' rd out = lock b rd os.
Proof.
  induction os as [|o os IH]; intros b b' rd out I H; cbn [b_ops lock] in *.
  - injection H as <- <-. reflexivity.
  - destruct (b_op b o) as [[b1 q1]|e] eqn:E; cbn [bind] in *; [| discriminate].
    destruct (b_ops b1 os) as [[b2 q2]|e] eqn:E2; cbn [bind] in *; [| discriminate]. injection H as <- <-.
    destruct (op_facts b [] rd o b1 q1 I E) as (I1 & _). cbn [app] in I1.
    destruct (ops_run up os q2 q1 b1 b2 rd I1 E2) as (_ & R). rewrite run_app.
    destruct (r_run up b1 rd q1) as [[b3 rd3]|e] eqn:R1; cbn [bind].
    + destruct R as (b4 & Ra & Rb). rewrite Rb. cbn [bind]. apply IH; [| exact Ra].
      apply (run_inv up q1 [] b1 rd b3 rd3); [rewrite app_nil_r; exact I1 | exact R1].
    + rewrite R. reflexivity.
Qed.

(** ** An element and what is under it *)
Definition orl (o : option (list pystr)) : list pystr := match o with Some l => l | None => [] end.
Fixpoint Rep (b : bst) (rd : reader) (hi : nat) (i : nat) (c : cnode) {struct c} : Prop :=
  match c with
  | CNode t a x bf af ks =>
      i < hi /\ n_tag (b_node b i) = t /\ n_attrs (b_node b i) = a /\ n_text (b_node b i) = x
      /\ orl (dget Nat.eqb (r_before rd) i) = bf /\ orl (dget Nat.eqb (r_after rd) i) = af
      /\ (fix Reps (lo : nat) (ids : list nat) (cs : list cnode) {struct cs} : Prop :=
            match ids, cs with
            | [], [] => lo <= hi
            | j :: ids', c :: cs' => lo <= j /\ exists m, Rep b rd m j c /\ Reps m ids' cs'
            | _, _ => False
            end) (S i) (nth i (b_kids b) []) ks
  end.
Fixpoint Reps (b : bst) (rd : reader) (hi lo : nat) (ids : list nat) (cs : list cnode) {struct cs} : Prop :=
  match ids, cs with
  | [], [] => lo <= hi
  | j :: ids', c :: cs' => lo <= j /\ exists m, Rep b rd m j c /\ Reps b rd hi m ids' cs'
  | _, _ => False
  end.
Lemma Rep_eq : forall b rd hi i t a x bf af ks, Rep b rd hi i (CNode t a x bf af ks) <->
  (i < hi /\ n_tag (b_node b i) = t /\ n_attrs (b_node b i) = a /\ n_text (b_node b i) = x
      /\ orl (dget Nat.eqb (r_before rd) i) = bf /\ orl (dget Nat.eqb (r_after rd) i) = af
      /\ Reps b rd hi (S i) (nth i (b_kids b) []) ks).
Proof.
  intros. cbn [Rep].
  assert (E : forall cs ids lo,
     (fix Reps (lo : nat) (ids : list nat) (cs : list cnode) {struct cs} : Prop :=
            match ids, cs with
            | [], [] => lo <= hi
            | j :: ids', c :: cs' => lo <= j /\ exists m, Rep b rd m j c /\ Reps m ids' cs'
            | _, _ => False
            end) lo ids cs <-> Reps b rd hi lo ids cs).
  { induction cs as [|c cs IH]; intros [|j ids] lo; try reflexivity. cbn [Reps].
    split; intros (H & m & R & H2); (split; [exact H |]; exists m; split; [exact R |]); apply IH; exact H2. }
  rewrite E. reflexivity.
Qed.
Lemma Rep_lt : forall b rd hi i c, Rep b rd hi i c -> i < hi.
Proof. intros b rd hi i [t a x bf af ks] H. apply (proj1 (Rep_eq _ _ _ _ _ _ _ _ _ _)) in H. tauto. Qed.
Lemma Reps_le : forall b rd hi cs ids lo, Reps b rd hi lo ids cs -> lo <= hi.
Proof.
  intros b rd hi. induction cs as [|c cs IH]; intros [|j ids] lo H; cbn [Reps] in H; try contradiction; [exact H |].
  destruct H as (Hl & m & R & H). apply IH in H. apply Rep_lt in R. qlia.
Qed.
Lemma Reps_length : forall b rd hi cs ids lo, Reps b rd hi lo ids cs -> length ids = length cs.
Proof.
  intros b rd hi. induction cs as [|c cs IH]; intros [|j ids] lo H; cbn [Reps] in H; try contradiction; [reflexivity |].
  destruct H as (Hl & m & R & H). cbn. rewrite (IH _ _ H). reflexivity.
Qed.
Lemma cnode_ind' (P : cnode -> Prop) :
  (forall t a x bf af k, Forall P k -> P (CNode t a x bf af k)) -> forall n, P n.
Proof.
  intro H. fix IH 1. intros [t a x bf af k]. apply H.
  induction k as [|n k IHk]; constructor; auto.
Qed.

(** element [i] looks the same in two states *)
Definition same_at (b : bst) (rd : reader) (b' : bst) (rd' : reader) (i : nat) : Prop :=
  n_tag (b_node b' i) = n_tag (b_node b i) /\ n_attrs (b_node b' i) = n_attrs (b_node b i)
  /\ n_text (b_node b' i) = n_text (b_node b i)
  /\ dget Nat.eqb (r_before rd') i = dget Nat.eqb (r_before rd) i
  /\ dget Nat.eqb (r_after rd') i = dget Nat.eqb (r_after rd) i
  /\ nth i (b_kids b') [] = nth i (b_kids b) [].
Lemma Rep_same : forall b rd b' rd' c hi i, Rep b rd hi i c ->
  (forall j, i <= j < hi -> same_at b rd b' rd' j) -> Rep b' rd' hi i c.
Proof.
  intros b rd b' rd'. induction c as [t a x bf af ks IH] using cnode_ind'. intros hi i H Hs.
  apply (proj1 (Rep_eq _ _ _ _ _ _ _ _ _ _)) in H. destruct H as (Hi & E1 & E2 & E3 & E4 & E5 & H).
  apply (proj2 (Rep_eq _ _ _ _ _ _ _ _ _ _)).
  destruct (Hs i (conj (le_n i) Hi)) as (S1 & S2 & S3 & S4 & S5 & S6).
  rewrite S1, S2, S3, S4, S5, S6. repeat (split; [assumption |]).
  assert (G : forall cs ids lo, Forall (fun c => forall hi i, Rep b rd hi i c -> (forall j, i <= j < hi -> same_at b rd b' rd' j) -> Rep b' rd' hi i c) cs ->
     S i <= lo -> Reps b rd hi lo ids cs -> Reps b' rd' hi lo ids cs).
  { induction cs as [|c cs IHc]; intros [|j ids] lo F Hlo R; cbn [Reps] in *; try contradiction; [exact R |].
    inversion F as [|? ? F1 F2]; subst. destruct R as (Hl & m & R & Rs). split; [exact Hl |]. exists m.
    pose proof (Reps_le _ _ _ _ _ _ Rs) as Hm. pose proof (Rep_lt _ _ _ _ _ R) as Hj.
    split; [apply F1; [exact R |]; intros j' Hj'; apply Hs; qlia |]. apply IHc; [exact F2 | qlia | exact Rs]. }
  apply G; [exact IH | qlia | exact H].
Qed.
Lemma Reps_same : forall b rd b' rd' hi cs ids lo, Reps b rd hi lo ids cs ->
  (forall j, lo <= j < hi -> same_at b rd b' rd' j) -> Reps b' rd' hi lo ids cs.
Proof.
  intros b rd b' rd' hi. induction cs as [|c cs IHc]; intros [|j ids] lo R Hs; cbn [Reps] in *; try contradiction; [exact R |].
  destruct R as (Hl & m & R & Rs). split; [exact Hl |]. exists m.
  pose proof (Reps_le _ _ _ _ _ _ Rs) as Hm. pose proof (Rep_lt _ _ _ _ _ R) as Hj.
  split; [apply (Rep_same b rd); [exact R |]; intros j' Hj'; apply Hs; qlia |]. apply IHc; [exact Rs |]. intros j' Hj'. apply Hs. qlia.
Qed.
Lemma Reps_weaken : forall b rd hi hi' cs ids lo, Reps b rd hi lo ids cs -> hi <= hi' -> Reps b rd hi' lo ids cs.
Proof.
  intros b rd hi hi'. induction cs as [|c cs IHc]; intros [|j ids] lo R H; cbn [Reps] in *; try contradiction; [qlia |].
  destruct R as (Hl & m & R & Rs). split; [exact Hl |]. exists m. split; [exact R |]. apply IHc; assumption.
Qed.
Lemma Reps_snoc : forall b rd m hi i c cs ids lo, Reps b rd m lo ids cs -> m <= i -> Rep b rd hi i c ->
  Reps b rd hi lo (ids ++ [i]) (cs ++ [c]).
Proof.
  intros b rd m hi i c. induction cs as [|c' cs IH]; intros [|j ids] lo R Hm Rc; cbn [Reps app] in *; try contradiction.
  - split; [qlia |]. exists hi. split; [exact Rc | qlia].
  - destruct R as (Hl & m' & R & Rs). split; [exact Hl |]. exists m'. split; [exact R |]. apply IH; assumption.
Qed.
Lemma Reps_unsnoc : forall b rd hi i c cs ids lo, Reps b rd hi lo (ids ++ [i]) (cs ++ [c]) ->
  exists m, m <= i /\ Reps b rd m lo ids cs /\ Rep b rd hi i c.
Proof.
  intros b rd hi i c. induction cs as [|c' cs IH]; intros [|j ids] lo R; cbn [Reps app] in R.
  - destruct R as (Hl & m & R & Rs). exists lo. split; [exact Hl |]. split; [cbn; qlia |].
    destruct c as [t a x bf af ks]. apply (proj1 (Rep_eq _ _ _ _ _ _ _ _ _ _)) in R. apply (proj2 (Rep_eq _ _ _ _ _ _ _ _ _ _)).
    destruct R as (R1 & R2 & R3 & R4 & R5 & R6 & R7). repeat (split; [assumption || qlia |]). apply (Reps_weaken _ _ m); assumption.
  - destruct R as (Hl & m & R & Rs). destruct ids; contradiction.
  - destruct R as (Hl & m & R & Rs). destruct cs; contradiction.
  - destruct R as (Hl & m & R & Rs). destruct (IH _ _ Rs) as (m' & H1 & H2 & H3). exists m'. split; [exact H1 |].
    split; [| exact H3]. cbn [Reps]. split; [exact Hl |]. exists m. split; assumption.
Qed.

(** ** The state inside open elements *)
Fixpoint chain (rd : reader) (st : list nat) : Prop :=
  match st with
  | p :: ((q :: _) as r) => dget Nat.eqb (r_parent rd) p = Some q /\ chain rd r
  | [p] => dget Nat.eqb (r_parent rd) p = None
  | [] => True
  end.
Fixpoint descending (st : list nat) : Prop :=
  match st with p :: r => (forall j, In j r -> j < p) /\ descending r | [] => True end.
Record Ctx (b : bst) (rd : reader) (st : list nat) : Prop := {
  c_inv : Inv b [] rd;
  c_elem : b_elem b = st;
  c_desc : descending st;
  c_chain : chain rd st;
  c_curr : r_curr rd = hd_error st;
  c_fresh : forall i, length (b_nodes b) <= i ->
      dget Nat.eqb (r_before rd) i = None /\ dget Nat.eqb (r_after rd) i = None
      /\ dget Nat.eqb (r_parent rd) i = None /\ dget Nat.eqb (r_hdc rd) i = None;
  c_tails : forall i, In i st -> n_tail (b_node b i) = None;
  c_some : st <> [] -> b_last b <> None;
  c_last : forall l, b_last b = Some l ->
      if b_tail b then n_tail (b_node b l) = None /\ (forall j, In j st -> j < l)
      else hd_error st = Some l /\ n_text (b_node b l) = None
}.
(** what is left alone *)
Record Frame (b : bst) (rd : reader) (b' : bst) (rd' : reader) (st : list nat) : Prop := {
  f_len : length (b_nodes b) <= length (b_nodes b');
  f_tag : forall i, i < length (b_nodes b) -> n_tag (b_node b' i) = n_tag (b_node b i);
  f_attrs : forall i, i < length (b_nodes b) -> n_attrs (b_node b' i) = n_attrs (b_node b i);
  f_text : forall i, i < length (b_nodes b) -> hd_error st <> Some i -> n_text (b_node b' i) = n_text (b_node b i);
  f_kids : forall i, i < length (b_nodes b) -> hd_error st <> Some i -> nth i (b_kids b') [] = nth i (b_kids b) [];
  f_before : forall i, i < length (b_nodes b) -> dget Nat.eqb (r_before rd') i = dget Nat.eqb (r_before rd) i;
  f_after : forall i, i < length (b_nodes b) -> dget Nat.eqb (r_after rd') i = dget Nat.eqb (r_after rd) i;
  f_parent : forall i, i < length (b_nodes b) -> dget Nat.eqb (r_parent rd') i = dget Nat.eqb (r_parent rd) i;
  f_hdc : forall i, i < length (b_nodes b) -> hd_error st <> Some i -> dget Nat.eqb (r_hdc rd') i = dget Nat.eqb (r_hdc rd) i;
  f_root : st <> [] -> r_root rd' = r_root rd
}.
Lemma Frame_refl : forall b rd st, Frame b rd b rd st.
Proof. intros. split; auto. Qed.
Lemma Frame_trans : forall b rd b1 rd1 b2 rd2 st, Frame b rd b1 rd1 st -> Frame b1 rd1 b2 rd2 st -> Frame b rd b2 rd2 st.
Proof.
  intros b rd b1 rd1 b2 rd2 st [A1 A2 A3 A4 A5 A6 A7 A8 A9 A10] [B1 B2 B3 B4 B5 B6 B7 B8 B9 B10].
  split; intros; try qlia.
  - rewrite B2, A2 by qlia; reflexivity.
  - rewrite B3, A3 by qlia; reflexivity.
  - rewrite B4, A4 by (assumption || qlia); reflexivity.
  - rewrite B5, A5 by (assumption || qlia); reflexivity.
  - rewrite B6, A6 by qlia; reflexivity.
  - rewrite B7, A7 by qlia; reflexivity.
  - rewrite B8, A8 by qlia; reflexivity.
  - rewrite B9, A9 by (assumption || qlia); reflexivity.
  - rewrite B10, A10 by assumption; reflexivity.
Qed.
Lemma Frame_same : forall b rd b' rd' st i, Frame b rd b' rd' st -> i < length (b_nodes b) -> hd_error st <> Some i ->
  same_at b rd b' rd' i.
Proof.
  intros b rd b' rd' st i [A1 A2 A3 A4 A5 A6 A7 A8 A9 A10] Hi Hn. unfold same_at.
  rewrite A2, A3, A4, A5, A6, A7 by assumption. repeat split; reflexivity.
Qed.

(** the text that the innermost element will have *)
Definition told (b : bst) (p : nat) : option pystr :=
  if b_tail b then n_text (b_node b p) else match b_data b with [] => None | ds => Some (concat ds) end.
Definition hdval (rd : reader) (p : nat) : bool := match dget Nat.eqb (r_hdc rd) p with Some b => b | None => false end.


Lemma chain_ext : forall rd rd' st, r_parent rd = r_parent rd' -> chain rd st -> chain rd' st.
Proof.
  intros rd rd' st H. induction st as [|p [|q st] IH]; intros C; cbn [chain] in *; [exact I | rewrite <- H; exact C |].
  destruct C as (C1 & C2). split; [rewrite <- H; exact C1 | exact (IH C2)].
Qed.
Lemma gd_same : forall V (d : list (nat * V)) k v, dget Nat.eqb (dset Nat.eqb d k v) k = Some v.
Proof. intros. apply dget_dset_same. intros x y. apply Nat.eqb_spec. Qed.
Lemma gd_other : forall V (d : list (nat * V)) k v j, j <> k -> dget Nat.eqb (dset Nat.eqb d k v) j = dget Nat.eqb d j.
Proof. intros. apply dget_dset_other; [| assumption]. intros x y. apply Nat.eqb_spec. Qed.

Lemma flush_ctx : forall b rd st, Ctx b rd st -> exists bf, b_flush b = Ok bf
  /\ (forall i, hd_error st <> Some i -> n_text (b_node bf i) = n_text (b_node b i))
  /\ (forall p, hd_error st = Some p -> n_text (b_node bf p) = told b p)
  /\ (forall i, In i st -> n_tail (b_node bf i) = None).
Proof.
  intros b rd st [C1 C2 C3 C4 C5 C6 C7 C8 C9]. unfold told, b_flush.
  destruct (b_data b) as [|d ds] eqn:D.
  { exists b. split; [reflexivity |]. split; [reflexivity |]. split; [| exact C7].
    intros p Hp. destruct (b_tail b) eqn:T; [reflexivity |].
    destruct (b_last b) as [l|] eqn:L.
    - destruct (C9 l eq_refl) as (H1 & H2). rewrite Hp in H1. injection H1 as <-. exact H2.
    - exfalso. apply C8; [| reflexivity]. intros ->. discriminate Hp. }
  destruct (b_last b) as [l|] eqn:L.
  2:{ exists (mkB (b_nodes b) (b_kids b) [] (b_elem b) None (b_tail b)). split; [reflexivity |]. split; [reflexivity |].
      assert (st = []) as -> by (destruct st; [reflexivity | exfalso; apply C8; [discriminate | reflexivity]]).
      split; [intros p Hp; discriminate Hp | intros i []]. }
  specialize (C9 l eq_refl). assert (Hl : l < length (b_nodes b)) by exact (i_last _ _ _ C1 l L).
  destruct (b_tail b) eqn:T.
  - destruct C9 as (C9 & C10). rewrite C9. eexists. split; [reflexivity |]. unfold b_node. cbn [b_nodes].
    assert (Tx : forall i, n_text (nth i (upd_nth l (fun n => mkN (n_tag n) (n_attrs n) (n_text n) (Some (concat (d :: ds)))) (b_nodes b)) dummy)
                 = n_text (nth i (b_nodes b) dummy)).
    { intros i. destruct (Nat.eq_dec l i) as [<-|Hne]; [rewrite nth_upd_same by exact Hl; reflexivity | rewrite nth_upd_other by exact Hne; reflexivity]. }
    split; [intros i _; apply Tx |]. split; [intros p _; apply Tx |].
    intros i Hi. rewrite nth_upd_other by (specialize (C10 i Hi); qlia). exact (C7 i Hi).
  - destruct C9 as (C9 & C10). rewrite C10. eexists. split; [reflexivity |]. unfold b_node. cbn [b_nodes].
    split; [intros i Hi; rewrite nth_upd_other by (intros ->; contradiction); reflexivity |].
    split; [intros p Hp; rewrite C9 in Hp; injection Hp as <-; rewrite nth_upd_same by exact Hl; reflexivity |].
    intros i Hi. destruct (Nat.eq_dec l i) as [<-|Hne]; [rewrite nth_upd_same by exact Hl | rewrite nth_upd_other by exact Hne]; cbn; exact (C7 _ Hi).
Qed.

(** a start tag *)
Record Opened (b : bst) (rd : reader) (b1 : bst) (rd1 : reader) (st : list nat) (t : pystr) (a : list (pystr * pystr)) : Prop := {
  o_ctx : Ctx b1 rd1 (length (b_nodes b) :: st);
  o_len : length (b_nodes b1) = S (length (b_nodes b));
  o_ntag : n_tag (b_node b1 (length (b_nodes b))) = t;
  o_nattrs : n_attrs (b_node b1 (length (b_nodes b))) = a;
  o_nkids : nth (length (b_nodes b)) (b_kids b1) [] = [];
  o_hdc : hdval rd1 (length (b_nodes b)) = false;
  o_tail : b_tail b1 = false;
  o_data : b_data b1 = [];
  o_comments : r_comments rd1 = [];
  o_before : orl (dget Nat.eqb (r_before rd1) (length (b_nodes b))) = r_comments rd;
  o_after : dget Nat.eqb (r_after rd1) (length (b_nodes b)) = None;
  o_root : r_root rd1 = match st with [] => Some (length (b_nodes b)) | _ => r_root rd end;
  o_same : forall i, i < length (b_nodes b) -> hd_error st <> Some i -> same_at b rd b1 rd1 i;
  o_parent : forall i, i < length (b_nodes b) -> dget Nat.eqb (r_parent rd1) i = dget Nat.eqb (r_parent rd) i;
  o_hdcs : r_hdc rd1 = r_hdc rd;
  o_top : forall p, hd_error st = Some p ->
      n_tag (b_node b1 p) = n_tag (b_node b p) /\ n_attrs (b_node b1 p) = n_attrs (b_node b p)
      /\ n_text (b_node b1 p) = told b p
      /\ dget Nat.eqb (r_before rd1) p = dget Nat.eqb (r_before rd) p
      /\ dget Nat.eqb (r_after rd1) p = dget Nat.eqb (r_after rd) p
      /\ nth p (b_kids b1) [] = nth p (b_kids b) [] ++ [length (b_nodes b)]
}.

Lemma start_ctx : forall b rd st t a, Ctx b rd st -> streq t comment_tag = false ->
  exists b1 rd1, lock b rd [OStart t a] = Ok (b1, rd1) /\ Opened b rd b1 rd1 st t a.
Proof.
  intros b rd st t a C Ht. destruct (flush_ctx b rd st C) as (bf & F & Ftx & Ftop & Ftl).
  destruct (flush_facts b bf F) as (Fk & Fe & Fl & Ft & Fd & Fn & Ftag & _ & _).
  pose proof C as [C1 C2 C3 C4 C5 C6 C7 C8 C9].
  set (n0 := length (b_nodes b)) in *.
  set (kids := match st with [] => b_kids b | p :: _ => upd_nth p (fun l => l ++ [n0]) (b_kids b) end ++ [[]]).
  set (bb := mkB (b_nodes bf ++ [mkN t a None None]) kids [] (n0 :: st) (Some n0) false).
  set (before := match r_comments rd with [] => r_before rd | c => dset Nat.eqb (r_before rd) n0 c end).
  set (rr := match st with
             | p :: _ => mkR (Some n0) (r_root rd) [] (r_ns rd) before (r_after rd) (dset Nat.eqb (r_parent rd) n0 p) (r_hdc rd)
             | [] => mkR (Some n0) (Some n0) [] (r_ns rd) before (r_after rd) (r_parent rd) (r_hdc rd)
             end).
  assert (Lk : b_op b (OStart t a) = Ok (bb, [QStart n0])).
  { cbn [b_op]. rewrite F. cbn [bind]. rewrite Fe, Fk, Fd, C2, Fn. reflexivity. }
  assert (Hnew : nth n0 (b_nodes bb) dummy = mkN t a None None).
  { unfold bb. cbn [b_nodes]. rewrite app_nth2 by (rewrite Fn; apply le_n). rewrite Fn. fold n0. rewrite Nat.sub_diag. reflexivity. }
  assert (Hold : forall i, i < n0 -> b_node bb i = b_node bf i).
  { intros i Hi. unfold b_node, bb. cbn [b_nodes]. apply app_nth1. rewrite Fn. exact Hi. }
  assert (Rn : r_run up bb rd [QStart n0] = Ok (bb, rr)).
  { cbn [r_run r_step]. rewrite Hnew. cbn [n_tag]. rewrite Ht. fold before. rewrite C5.
    unfold rr. destruct st as [|p es]; cbn [hd_error bind]; reflexivity. }
  assert (Lock : lock b rd [OStart t a] = Ok (bb, rr)).
  { cbn [lock]. rewrite Lk. cbn [bind]. rewrite Rn. reflexivity. }
  assert (Hlen : length (b_nodes bb) = S n0).
  { unfold bb. cbn [b_nodes]. rewrite app_length, Fn. cbn. fold n0. qlia. }
  assert (Hst : forall i, In i st -> i < n0) by (intros i Hi; apply (i_elem _ _ _ C1); rewrite C2; exact Hi).
  assert (Hkl : length (b_kids b) = n0) by exact (i_len _ _ _ C1).
  assert (Hb : forall i, i <> n0 -> dget Nat.eqb before i = dget Nat.eqb (r_before rd) i).
  { intros i Hi. unfold before. destruct (r_comments rd); [reflexivity | apply gd_other; exact Hi]. }
  exists bb, rr. split; [exact Lock |].
  assert (Hp : forall i, i <> n0 -> dget Nat.eqb (r_parent rr) i = dget Nat.eqb (r_parent rd) i).
  { intros i Hi. unfold rr. destruct st; cbn [r_parent]; [reflexivity | apply gd_other; exact Hi]. }
  assert (Hbr : r_before rr = before /\ r_after rr = r_after rd /\ r_hdc rr = r_hdc rd /\ r_comments rr = [] /\ r_curr rr = Some n0).
  { unfold rr. destruct st; repeat split; reflexivity. }
  destruct Hbr as (Hb1 & Hb2 & Hb3 & Hb4 & Hb5).
  split; fold n0.
  - split.
    + destruct (op_facts b [] rd (OStart t a) bb [QStart n0] C1 Lk) as (I1 & _).
      apply (run_inv up [QStart n0] [] bb rd bb rr); [exact I1 | exact Rn].
    + reflexivity.
    + split; [exact Hst | exact C3].
    + assert (Hc : forall l, (forall i, In i l -> i <> n0) -> chain rd l -> chain rr l).
      { induction l as [|x l IHl]; [intros; exact I |]. intros Hl Hch. cbn [chain] in *.
        destruct l as [|y l]; [rewrite Hp; [exact Hch | apply Hl; left; reflexivity] |].
        destruct Hch as (Hx & Hch). split; [rewrite Hp; [exact Hx | apply Hl; left; reflexivity] |].
        apply IHl; [intros i Hi; apply Hl; right; exact Hi | exact Hch]. }
      specialize (Hc st (fun i Hi => Nat.lt_neq _ _ (Hst i Hi)) C4). cbn [chain]. unfold rr in *.
      destruct st as [|p es]; [apply (C6 n0 (le_n _)) |]. split; [cbn [r_parent]; apply gd_same | exact Hc].
    + exact Hb5.
    + intros i Hi. rewrite Hlen in Hi. rewrite Hb1, Hb2, Hb3, Hb by qlia. rewrite Hp by qlia. apply C6. fold n0. qlia.
    + intros i [<-|Hi]; [unfold b_node; rewrite Hnew; reflexivity |]. rewrite Hold by exact (Hst i Hi). exact (Ftl i Hi).
    + discriminate.
    + intros l E. injection E as <-. cbn [b_tail bb]. split; [reflexivity |]. unfold b_node. rewrite Hnew. reflexivity.
  - exact Hlen.
  - unfold b_node. rewrite Hnew. reflexivity.
  - unfold b_node. rewrite Hnew. reflexivity.
  - unfold bb, kids. cbn [b_kids]. rewrite app_nth2; destruct st; rewrite ?upd_nth_length, Hkl; try apply le_n; rewrite Nat.sub_diag; reflexivity.
  - unfold hdval. rewrite Hb3. destruct (C6 n0 (le_n _)) as (_ & _ & _ & ->). reflexivity.
  - reflexivity.
  - reflexivity.
  - exact Hb4.
  - rewrite Hb1. unfold before. destruct (C6 n0 (le_n _)) as (C6a & _). destruct (r_comments rd) as [|c cs].
    + rewrite C6a. reflexivity.
    + rewrite gd_same. reflexivity.
  - rewrite Hb2. apply (C6 n0 (le_n _)).
  - unfold rr. destruct st; reflexivity.
  - intros i Hi Hn. unfold same_at. rewrite Hold by exact Hi. rewrite Hb1, Hb2, Hb by qlia.
    destruct (Ftag i) as (-> & ->). rewrite (Ftx i Hn). repeat (split; [reflexivity |]).
    unfold bb, kids. cbn [b_kids]. destruct st as [|p es].
    + apply app_nth1. rewrite Hkl. exact Hi.
    + rewrite app_nth1 by (rewrite upd_nth_length, Hkl; exact Hi). apply nth_upd_other. intros ->. apply Hn. reflexivity.
  - intros i Hi. apply Hp. qlia.
  - exact Hb3.
  - intros p Hpp. destruct st as [|p' es]; [discriminate Hpp |]. injection Hpp as ->.
    assert (Hpl : p < n0) by (apply Hst; left; reflexivity).
    rewrite Hold by exact Hpl. rewrite Hb1, Hb2, Hb by qlia. destruct (Ftag p) as (-> & ->). rewrite (Ftop p eq_refl).
    repeat (split; [reflexivity |]). unfold bb, kids. cbn [b_kids].
    rewrite app_nth1 by (rewrite upd_nth_length, Hkl; exact Hpl). apply nth_upd_same. rewrite Hkl. exact Hpl.
Qed.

Definition inherit (x : option pystr) : bool := match x with Some t => streq t uparrow3 | None => false end.
Definition is_nil {A} (l : list A) : bool := match l with [] => true | _ => false end.
Definition settle (p : list pystr) (cs : list cnode) : list cnode * list pystr :=
  match p, cs with
  | _ :: _, _ :: _ => (upd_last (set_after p) cs, [])
  | _, _ => (cs, p)
  end.

Lemma remove1_last : forall i l, ~ In i l -> remove1 i (l ++ [i]) = Some l.
Proof.
  intros i. induction l as [|x l IH]; intros H; cbn [app remove1].
  - rewrite Nat.eqb_refl. reflexivity.
  - destruct (Nat.eqb_spec x i) as [->|_]; [exfalso; apply H; left; reflexivity |].
    rewrite IH by (intros Hin; apply H; right; exact Hin). reflexivity.
Qed.

(** an end tag *)
Record Closed (b : bst) (rd : reader) (b' : bst) (rd' : reader) (i : nat) (st : list nat) (cs : list cnode) (gone : bool) (pre : list nat) : Prop := {
  x_ctx : Ctx b' rd' st;
  x_len : length (b_nodes b') = length (b_nodes b);
  x_rep : Rep b' rd' (length (b_nodes b')) i
            (CNode (n_tag (b_node b i)) (n_attrs (b_node b i)) (told b i) (orl (dget Nat.eqb (r_before rd) i))
                   (orl (dget Nat.eqb (r_after rd) i)) (fst (settle (r_comments rd) cs)));
  x_comments : r_comments rd' = snd (settle (r_comments rd) cs);
  x_tail : b_tail b' = true;
  x_data : b_data b' = [];
  x_root : r_root rd' = r_root rd;
  x_same : forall j, j < i -> hd_error st <> Some j -> same_at b rd b' rd' j;
  x_parent : r_parent rd' = r_parent rd;
  x_hdc : forall j, hd_error st <> Some j -> dget Nat.eqb (r_hdc rd') j = dget Nat.eqb (r_hdc rd) j;
  x_top : forall p, hd_error st = Some p ->
      n_tag (b_node b' p) = n_tag (b_node b p) /\ n_attrs (b_node b' p) = n_attrs (b_node b p)
      /\ n_text (b_node b' p) = n_text (b_node b p)
      /\ dget Nat.eqb (r_before rd') p = dget Nat.eqb (r_before rd) p
      /\ dget Nat.eqb (r_after rd') p = dget Nat.eqb (r_after rd) p
      /\ hdval rd' p = (if up then hdval rd p else gone)
      /\ nth p (b_kids b') [] = if gone then pre else nth p (b_kids b) []
}.

Lemma upd_last_id : forall A (f : A -> A) l, (forall x, f x = x) -> upd_last f l = l.
Proof. intros A f l H. induction l as [|x [|y l] IH]; [reflexivity | cbn; rewrite H; reflexivity |]. cbn [upd_last] in *. rewrite IH. reflexivity. Qed.
Lemma upd_last_is_nil : forall A (f : A -> A) l, is_nil (upd_last f l) = is_nil l.
Proof. intros A f [|x [|y l]]; reflexivity. Qed.

Lemma end_ctx : forall b rd i st t cs pre, Ctx b rd (i :: st) -> n_tag (b_node b i) = t -> streq t comment_tag = false ->
  Reps b rd (length (b_nodes b)) (S i) (nth i (b_kids b) []) cs ->
  (forall q, hd_error st = Some q -> nth q (b_kids b) [] = pre ++ [i] /\ ~ In i pre) ->
  let gone := (negb up && (inherit (told b i) || (hdval rd i && is_nil (fst (settle (r_comments rd) cs)))))%bool in
  if (gone && is_nil st)%bool then lock b rd [OEnd t] = Raise AttributeError
  else exists b' rd', lock b rd [OEnd t] = Ok (b', rd') /\ Closed b rd b' rd' i st cs gone pre.
Proof.
  intros b rd i st t cs pre C Htag Ht Rk Hq gone.
  destruct (flush_ctx b rd (i :: st) C) as (bf & F & Ftx & Ftop & Ftl).
  destruct (flush_facts b bf F) as (Fk & Fe & Fl & Ft & Fd & Fn & Ftag & _ & _).
  pose proof C as [C1 C2 C3 C4 C5 C6 C7 C8 C9].
  set (N0 := length (b_nodes b)) in *. set (ks := nth i (b_kids b) []) in *.
  set (be := mkB (b_nodes bf) (b_kids b) [] st (Some i) true).
  assert (Hi : i < N0) by (apply (i_elem _ _ _ C1); rewrite C2; left; reflexivity).
  assert (Hst : forall j, In j st -> j < i) by (destruct C3 as (C3 & _); exact C3).
  assert (Lk : b_op b (OEnd t) = Ok (be, [QEnd i])).
  { cbn [b_op]. rewrite F. cbn [bind]. rewrite Fe, C2. destruct (Ftag i) as (-> & _). rewrite Htag, streq_refl.
    unfold be. rewrite Fk, Fd. reflexivity. }
  assert (Hpar : dget Nat.eqb (r_parent rd) i = hd_error st).
  { cbn [chain] in C4. destruct st as [|q es]; [exact C4 | destruct C4 as (C4 & _); exact C4]. }
  (* the comments *)
  set (ac := match r_comments rd, rev ks with
             | c :: cs, k :: _ => (dset Nat.eqb (r_after rd) k (c :: cs), [])
             | cs, _ => (r_after rd, cs)
             end).
  assert (Hac : snd ac = snd (settle (r_comments rd) cs)
                /\ (forall j, j < S i \/ N0 <= j -> dget Nat.eqb (fst ac) j = dget Nat.eqb (r_after rd) j)
                /\ is_nil ks = is_nil (fst (settle (r_comments rd) cs))
                /\ forall bx rx, (forall j, S i <= j < N0 -> same_at b rd bx (mkR (r_curr rx) (r_root rx) (r_comments rx) (r_ns rx) (r_before rx) (r_after rd) (r_parent rx) (r_hdc rx)) j) ->
                     r_after rx = fst ac -> Reps bx rx N0 (S i) ks (fst (settle (r_comments rd) cs))).
  { pose proof (Reps_length _ _ _ _ _ _ Rk) as Hlen.
    unfold ac, settle. destruct (r_comments rd) as [|c0 pc] eqn:Hcm.
    - cbn [fst snd]. split; [reflexivity |]. split; [reflexivity |].
      split; [destruct ks, cs; try discriminate Hlen; reflexivity |].
      intros bx rx Hs Ha. apply (Reps_same b rd); [exact Rk |]. intros j Hj. specialize (Hs j Hj).
      unfold same_at in *. cbn [r_before r_after] in Hs. rewrite Ha. exact Hs.
    - destruct (rev ks) as [|k rk] eqn:Hr.
      + assert (ks = []) as Hks by (rewrite <- (rev_involutive ks), Hr; reflexivity). rewrite Hks in *.
        destruct cs as [|c1 cs]; [| discriminate Hlen]. cbn [fst snd]. split; [reflexivity |]. split; [reflexivity |].
        split; [reflexivity |]. intros bx rx _ _. exact Rk.
      + assert (Hks : ks = rev rk ++ [k]) by (rewrite <- (rev_involutive ks), Hr; reflexivity).
        destruct (rev cs) as [|cl rc] eqn:Hrc.
        { assert (cs = []) as Hcs by (rewrite <- (rev_involutive cs), Hrc; reflexivity). rewrite Hks, Hcs in Hlen.
          rewrite app_length in Hlen. cbn in Hlen. qlia. }
        assert (Hcs : cs = rev rc ++ [cl]) by (rewrite <- (rev_involutive cs), Hrc; reflexivity).
        destruct cs as [|c1 cs']; [destruct (rev rc); discriminate Hcs |]. rewrite Hcs in *. cbn [fst snd].
        rewrite Hks in Rk. apply Reps_unsnoc in Rk. destruct Rk as (m & Hm & Ra & Rb).
        pose proof (Reps_le _ _ _ _ _ _ Ra) as Hle. pose proof (Rep_lt _ _ _ _ _ Rb) as Hlt.
        split; [reflexivity |]. split; [intros j Hj; apply gd_other; qlia |]. split.
        { rewrite upd_last_is_nil, Hks. destruct (rev rk), (rev rc); reflexivity. }
        intros bx rx Hs Ha. rewrite upd_last_snoc, Hks.
        assert (Hs' : forall j, S i <= j < N0 -> j <> k -> same_at b rd bx rx j).
        { intros j Hj Hne. specialize (Hs j Hj). unfold same_at in *. cbn [r_before r_after] in Hs. rewrite Ha, gd_other by exact Hne. exact Hs. }
        apply (Reps_snoc _ _ m).
        * apply (Reps_same b rd); [exact Ra |]. intros j Hj. apply Hs'; qlia.
        * exact Hm.
        * destruct cl as [t' a' x' bf' af' ks']. cbn [set_after].
          apply (proj1 (Rep_eq _ _ _ _ _ _ _ _ _ _)) in Rb. apply (proj2 (Rep_eq _ _ _ _ _ _ _ _ _ _)).
          destruct Rb as (B1 & B2 & B3 & B4 & B5 & B6 & B7).
          destruct (Hs k) as (S1 & S2 & S3 & S4 & S5 & S6); [qlia |]. cbn [r_before] in S4.
          rewrite S1, S2, S3, S4, S6, Ha, gd_same. cbn [orl]. repeat (split; [assumption || reflexivity |]).
          apply (Reps_same b rd); [exact B7 |]. intros j Hj. apply Hs'; qlia. }
  destruct Hac as (Hac1 & Hac2 & Hac3 & Hac4).
  set (rd1 := fun hdc => mkR (hd_error st) (r_root rd) (snd ac) (r_ns rd) (r_before rd) (fst ac) (r_parent rd) hdc).
  assert (Stp : r_step up (b_nodes be) (b_kids be) rd (QEnd i)
     = if gone then do kids' <- take_out (b_kids b) (hd_error st) i;
                    match hd_error st with None => Raise AttributeError | Some c => Ok (kids', rd1 (dset Nat.eqb (r_hdc rd) c true)) end
       else match hd_error st with
            | None => Ok (b_kids b, rd1 (r_hdc rd))
            | Some c => Ok (b_kids b, rd1 (if up then r_hdc rd else dset Nat.eqb (r_hdc rd) c false)) end).
  { cbn [r_step]. change (nth i (b_nodes be) dummy) with (b_node bf i). destruct (Ftag i) as (-> & _). rewrite Htag, Ht.
    change (b_kids be) with (b_kids b). fold ks. rewrite (Ftop i eq_refl). rewrite Hpar.
    change (match told b i with Some t0 => streq t0 uparrow3 | None => false end) with (inherit (told b i)).
    change (match dget Nat.eqb (r_hdc rd) i with Some b0 => b0 | None => false end) with (hdval rd i).
    change (match ks with [] => true | _ :: _ => false end) with (is_nil ks). rewrite Hac3.
    unfold gone, rd1, ac.
    destruct (r_comments rd) as [|c0 pc]; destruct (rev ks) as [|k rk]; destruct up; cbn [negb andb fst snd];
      try (destruct (hd_error st); reflexivity);
      (destruct (inherit (told b i) || _)%bool; [reflexivity |]; destruct (hd_error st); reflexivity). }
  assert (Nd : forall j, n_tag (b_node be j) = n_tag (b_node b j) /\ n_attrs (b_node be j) = n_attrs (b_node b j)).
  { intros j. apply (Ftag j). }
  assert (Fin : forall kids' hdc',
     lock b rd [OEnd t] = Ok (with_kids be kids', rd1 hdc') ->
     (forall j, hd_error st <> Some j -> nth j kids' [] = nth j (b_kids b) []) ->
     (forall p, hd_error st = Some p -> nth p kids' [] = if gone then pre else nth p (b_kids b) []) ->
     (forall p, hd_error st = Some p -> hdval (rd1 hdc') p = if up then hdval rd p else gone) ->
     (forall j, hd_error st <> Some j -> dget Nat.eqb hdc' j = dget Nat.eqb (r_hdc rd) j) ->
     Closed b rd (with_kids be kids') (rd1 hdc') i st cs gone pre).
  { intros kids' hdc' HL Hk1 Hk2 Hh1 Hh2.
    assert (Hsm : forall j, i <> j -> hd_error st <> Some j -> dget Nat.eqb (fst ac) j = dget Nat.eqb (r_after rd) j ->
              same_at b rd (with_kids be kids') (rd1 hdc') j).
    { intros j Hj Hn Ha. unfold same_at. change (b_node (with_kids be kids') j) with (b_node bf j).
      destruct (Ftag j) as (-> & ->). rewrite (Ftx j) by (cbn [hd_error]; congruence).
      unfold rd1. cbn [r_before r_after with_kids b_kids]. rewrite (Hk1 j Hn), Ha. repeat split; reflexivity. }
    split.
    - split.
      + destruct (op_facts b [] rd (OEnd t) be [QEnd i] C1 Lk) as (I1 & _).
        cbn [lock] in HL. rewrite Lk in HL. cbn [bind] in HL.
        destruct (r_run up be rd [QEnd i]) as [[b2 r2]|e] eqn:Rr; cbn [bind] in HL; [| discriminate]. injection HL as <- <-.
        apply (run_inv up [QEnd i] [] be rd); [exact I1 | exact Rr].
      + reflexivity.
      + destruct C3 as (_ & C3). exact C3.
      + cbn [chain] in C4. destruct st as [|q es]; [exact I |]. destruct C4 as (_ & C4). apply (chain_ext rd); [reflexivity | exact C4].
      + reflexivity.
      + cbn [with_kids b_nodes be]. intros j Hj. rewrite Fn in Hj. unfold rd1. cbn [r_before r_after r_parent r_hdc].
        rewrite Hac2 by (right; exact Hj). destruct (C6 j Hj) as (-> & -> & -> & C6d). repeat (split; [reflexivity |]).
        rewrite Hh2; [exact C6d |]. intros E. assert (j < i) by (apply Hst; destruct st; [discriminate E | injection E as ->; left; reflexivity]).
        fold N0 in Hj. qlia.
      + intros j Hj. apply (Ftl j). right. exact Hj.
      + discriminate.
      + intros l E. injection E as <-. cbn [b_tail with_kids be]. split; [apply (Ftl i); left; reflexivity | exact Hst].
    - cbn [with_kids b_nodes be]. exact Fn.
    - cbn [with_kids b_nodes be]. rewrite Fn. fold N0. apply (proj2 (Rep_eq _ _ _ _ _ _ _ _ _ _)).
      split; [exact Hi |]. change (b_node (with_kids be kids') i) with (b_node bf i).
      destruct (Ftag i) as (-> & ->). rewrite (Ftop i eq_refl). unfold rd1 at 1 2. cbn [r_before r_after].
      rewrite Hac2 by (left; qlia). repeat (split; [reflexivity |]).
      assert (Hne : hd_error st <> Some i).
      { intros E. assert (i < i) by (apply Hst; destruct st; [discriminate E | injection E as ->; left; reflexivity]). qlia. }
      cbn [with_kids b_kids]. rewrite (Hk1 i Hne). fold ks. apply Hac4; [| reflexivity].
      intros j Hj. unfold same_at. cbn [r_before r_after rd1 r_curr r_root r_comments r_ns r_parent r_hdc].
      change (b_node (with_kids be kids') j) with (b_node bf j).
      destruct (Ftag j) as (-> & ->). rewrite (Ftx j) by (cbn [hd_error]; intros E; injection E; qlia).
      cbn [with_kids b_kids]. rewrite Hk1; [repeat split; reflexivity |].
      intros E. assert (j < i) by (apply Hst; destruct st; [discriminate E | injection E as ->; left; reflexivity]). qlia.
    - exact Hac1.
    - reflexivity.
    - reflexivity.
    - reflexivity.
    - intros j Hj Hn. apply Hsm; [qlia | exact Hn |]. apply Hac2. left. qlia.
    - reflexivity.
    - exact Hh2.
    - intros p Hp. assert (p < i) by (apply Hst; destruct st; [discriminate Hp | injection Hp as ->; left; reflexivity]).
      change (b_node (with_kids be kids') p) with (b_node bf p). destruct (Ftag p) as (-> & ->).
      rewrite (Ftx p) by (cbn [hd_error]; intros E; injection E; qlia).
      unfold rd1 at 1 2. cbn [r_before r_after]. rewrite Hac2 by (left; qlia). repeat (split; [reflexivity |]).
      split; [exact (Hh1 p Hp) | exact (Hk2 p Hp)]. }
  assert (HL : forall kids' rx, r_step up (b_nodes be) (b_kids be) rd (QEnd i) = Ok (kids', rx) -> lock b rd [OEnd t] = Ok (with_kids be kids', rx)).
  { intros kids' rx E. cbn [lock]. rewrite Lk. cbn [bind r_run]. rewrite E. reflexivity. }
  destruct st as [|q es]; cbn [hd_error is_nil] in *.
  - destruct gone eqn:G; cbn [andb].
    + cbn [lock]. rewrite Lk. cbn [bind r_run]. rewrite Stp. reflexivity.
    + do 2 eexists. split; [apply HL; rewrite Stp; reflexivity |].
      apply Fin; [apply HL; rewrite Stp; reflexivity | reflexivity | | | reflexivity]; intros p E; discriminate E.
  - rewrite andb_false_r. destruct (Hq q eq_refl) as (Hk & Hni).
    assert (Hql : q < length (b_kids b)).
    { rewrite (i_len _ _ _ C1). fold N0. assert (q < i) by (apply Hst; left; reflexivity). qlia. }
    destruct gone eqn:G.
    + assert (TO : take_out (b_kids b) (Some q) i = Ok (upd_nth q (fun _ => pre) (b_kids b))).
      { cbn [take_out]. rewrite Hk, remove1_last by exact Hni. reflexivity. }
      assert (Hup : up = false).
      { unfold gone in G. destruct up; [discriminate G | reflexivity]. }
      rewrite TO in Stp. cbn [bind] in Stp.
      do 2 eexists. split; [apply HL; exact Stp |]. apply Fin; [apply HL; exact Stp | | | |].
      * intros j Hj. apply nth_upd_other. congruence.
      * intros p E. injection E as <-. rewrite nth_upd_same by exact Hql. reflexivity.
      * intros p E. injection E as <-. unfold hdval, rd1. cbn [r_hdc]. rewrite gd_same, Hup. reflexivity.
      * intros j Hj. apply gd_other. congruence.
    + do 2 eexists. split; [apply HL; exact Stp |]. apply Fin; [apply HL; exact Stp | reflexivity | | |].
      * intros p E. reflexivity.
      * intros p E. injection E as <-. unfold hdval, rd1. cbn [r_hdc]. destruct up; [reflexivity |]. rewrite gd_same. reflexivity.
      * intros j Hj. destruct up; [reflexivity |]. apply gd_other. congruence.
Qed.

(** ** Items *)
Fixpoint item_ops (x : item) : list op :=
  match x with
  | Data s => [OData s]
  | Child t a c => OStart t a :: flat_map item_ops c ++ [OEnd t]
  end.
Inductive proper : item -> Prop :=
| P_data s : proper (Data s)
| P_child t a c : (t = comment_tag -> c = []) -> Forall proper c -> proper (Child t a c).

(** the tree of the items, without the text after children, which the loop does not look at *)
Fixpoint kidsof (l : list item) : list xnode :=
  match l with
  | [] => []
  | Data _ :: l' => kidsof l'
  | x :: l' => item_tree x :: kidsof l'
  end.
Fixpoint lead (acc : option pystr) (l : list item) : option pystr :=
  match l with
  | Data s :: l' => lead (more acc s) l'
  | _ => acc
  end.
Definition no_tail (n : xnode) : xnode := XNode (xtag n) (xattrs n) (xtext n) None (xkids n).
Lemma fold_kids : forall l acc,
  map no_tail (snd (fold_left (add_item item_tree) l acc)) = map no_tail (snd acc) ++ map no_tail (kidsof l)
  /\ fst (fold_left (add_item item_tree) l acc) = match snd acc with [] => lead (fst acc) l | _ => fst acc end.
Proof.
  induction l as [|x l IH]; intros [tx ks]; cbn [fold_left kidsof lead snd fst].
  - rewrite app_nil_r. split; [reflexivity |]. destruct ks; reflexivity.
  - destruct x as [s|t a c].
    + cbn [add_item snd fst]. destruct ks as [|k ks].
      * destruct (IH (more tx s, [])) as (H1 & H2). split; [exact H1 | exact H2].
      * destruct (IH (tx, upd_last (more_tail s) (k :: ks))) as (H1 & H2). cbn [snd fst] in *. split.
        -- rewrite H1. f_equal. clear. revert k. induction ks as [|k' ks IHk]; intros k.
           ++ destruct k. reflexivity.
           ++ cbn [upd_last map] in *. rewrite <- (IHk k'). reflexivity.
        -- rewrite H2. destruct ks; reflexivity.
    + cbn [add_item snd fst]. destruct (IH (tx, ks ++ [item_tree (Child t a c)])) as (H1 & H2). cbn [snd fst] in *. split.
      * rewrite H1, map_app, <- app_assoc. reflexivity.
      * rewrite H2. destruct ks; reflexivity.
Qed.
Lemma loop_no_tail : forall top n p, loop_el up top n p = loop_el up top (no_tail n) p.
Proof. intros top [t a x y k] p. unfold no_tail. cbn [xtag xattrs xtext xkids]. rewrite !loop_el_eq. reflexivity. Qed.
Lemma kids_no_tail : forall ks ks' hd acc p, map no_tail ks = map no_tail ks' -> kids_loop up ks hd acc p = kids_loop up ks' hd acc p.
Proof.
  induction ks as [|k ks IH]; intros [|k' ks'] hd acc p H; try discriminate H; [reflexivity |].
  cbn [map] in H. injection H as H1 H2. cbn [kids_loop].
  assert (T : no_tail k = no_tail k') by exact H1 || (destruct k, k'; unfold no_tail; cbn in *; congruence).
  rewrite (loop_no_tail false k), (loop_no_tail false k'), T.
  assert (Tg : xtag k = xtag k') by (destruct k, k'; unfold no_tail in T; cbn in *; congruence). rewrite Tg.
  destruct (loop_el up false (no_tail k') p) as [[[c|] q]|e]; cbn [bind]; auto.
Qed.

(** a comment *)
Lemma comment_ctx : forall b rd st a, Ctx b rd st ->
  (forall p, hd_error st = Some p -> forall j, In j (nth p (b_kids b) []) -> j < length (b_nodes b)) ->
  exists b' rd', lock b rd [OStart comment_tag a; OEnd comment_tag] = Ok (b', rd')
  /\ Ctx b' rd' st /\ Frame b rd b' rd' st /\ b_tail b' = true /\ r_hdc rd' = r_hdc rd /\ r_root rd' = r_root rd
  /\ r_comments rd' = r_comments rd ++ [match dget streq a (lit "text") with Some t => t | None => [] end]
  /\ (forall p, hd_error st = Some p -> n_text (b_node b' p) = told b p /\ nth p (b_kids b') [] = nth p (b_kids b) []).
Proof.
  intros b rd st a C Hfresh. destruct (flush_ctx b rd st C) as (bf & F & Ftx & Ftop & Ftl).
  destruct (flush_facts b bf F) as (Fk & Fe & Fl & Ft & Fd & Fn & Ftag & _ & _).
  pose proof C as [C1 C2 C3 C4 C5 C6 C7 C8 C9].
  set (n0 := length (b_nodes b)) in *.
  set (nodes := b_nodes bf ++ [mkN comment_tag a None None]).
  set (kids := match st with [] => b_kids b | p :: _ => upd_nth p (fun l => l ++ [n0]) (b_kids b) end ++ [[]]).
  set (bb := mkB nodes kids [] (n0 :: st) (Some n0) false).
  set (rr := mkR (r_curr rd) (r_root rd) (r_comments rd ++ [match dget streq a (lit "text") with Some t => t | None => [] end])
               (r_ns rd) (r_before rd) (r_after rd) (r_parent rd) (r_hdc rd)).
  set (be := mkB nodes kids [] st (Some n0) true).
  assert (Lk : b_op b (OStart comment_tag a) = Ok (bb, [QStart n0])).
  { cbn [b_op]. rewrite F. cbn [bind]. rewrite Fe, Fk, Fd, C2, Fn. reflexivity. }
  assert (Hnew : nth n0 nodes dummy = mkN comment_tag a None None).
  { unfold nodes. rewrite app_nth2 by (rewrite Fn; apply le_n). rewrite Fn. fold n0. rewrite Nat.sub_diag. reflexivity. }
  assert (Hold : forall i, i < n0 -> nth i nodes dummy = b_node bf i).
  { intros i Hi. unfold b_node, nodes. apply app_nth1. rewrite Fn. exact Hi. }
  assert (Hlen : length nodes = S n0) by (unfold nodes; rewrite app_length, Fn; cbn; fold n0; qlia).
  assert (Hst : forall i, In i st -> i < n0) by (intros i Hi; apply (i_elem _ _ _ C1); rewrite C2; exact Hi).
  assert (Hkl : length (b_kids b) = n0) by exact (i_len _ _ _ C1).
  assert (Rn : r_run up bb rd [QStart n0] = Ok (bb, rr)).
  { cbn [r_run r_step]. change (nth n0 (b_nodes bb) dummy) with (nth n0 nodes dummy). rewrite Hnew. cbn [n_tag n_attrs].
    rewrite streq_refl. reflexivity. }
  assert (Le : b_op bb (OEnd comment_tag) = Ok (be, [QEnd n0])).
  { cbn [b_op]. unfold b_flush. cbn [b_data bb bind b_elem]. unfold b_node. change (b_nodes bb) with nodes. rewrite Hnew. cbn [n_tag].
    rewrite streq_refl. reflexivity. }
  set (kids' := b_kids b ++ [[]]).
  assert (Re : r_run up be rr [QEnd n0] = Ok (with_kids be kids', rr)).
  { cbn [r_run r_step]. change (nth n0 (b_nodes be) dummy) with (nth n0 nodes dummy). rewrite Hnew. cbn [n_tag].
    rewrite streq_refl. cbn [r_curr rr]. rewrite C5. unfold kids'. destruct st as [|p es]; cbn [hd_error].
    - reflexivity.
    - assert (Hp : p < n0) by (apply Hst; left; reflexivity). unfold take_out. cbn [b_kids be kids]. unfold kids.
      rewrite app_nth1 by (rewrite upd_nth_length, Hkl; exact Hp). rewrite nth_upd_same by (rewrite Hkl; exact Hp).
      rewrite remove1_last by (intros Hin; specialize (Hfresh p eq_refl n0 Hin); qlia). cbn [bind].
      rewrite upd_nth_app by (rewrite upd_nth_length, Hkl; exact Hp). rewrite upd_upd_same.
      rewrite (upd_const_ext _ (fun _ => nth p (b_kids b) []) (fun x => x) []) by reflexivity.
      assert (Hid : forall A (l : list A) i, upd_nth i (fun x => x) l = l).
      { clear. intros A. induction l as [|x l IH]; intros [|i]; cbn; auto. rewrite IH. reflexivity. }
      rewrite Hid. reflexivity. }
  exists (with_kids be kids'), rr.
  assert (I1 : Inv bb [] rr).
  { destruct (op_facts b [] rd _ bb _ C1 Lk) as (I1 & _). apply (run_inv up [QStart n0] [] bb rd bb rr); [exact I1 | exact Rn]. }
  split.
  { cbn [lock]. rewrite Lk. cbn [bind]. rewrite Rn. cbn [bind]. rewrite Le. cbn [bind]. rewrite Re. reflexivity. }
  assert (Tx : forall i, i < n0 -> n_tag (nth i nodes dummy) = n_tag (b_node b i) /\ n_attrs (nth i nodes dummy) = n_attrs (b_node b i)).
  { intros i Hi. rewrite Hold by exact Hi. apply Ftag. }
  split; [| split; [| repeat (split; [reflexivity |])]].
  - split.
    + destruct (op_facts bb [] rr _ be _ I1 Le) as (I2 & _). apply (run_inv up [QEnd n0] [] be rr); [exact I2 | exact Re].
    + reflexivity.
    + exact C3.
    + apply (chain_ext rd); [reflexivity | exact C4].
    + exact C5.
    + change (b_nodes (with_kids be kids')) with nodes. rewrite Hlen. intros i Hi. apply (C6 i). qlia.
    + intros i Hi. change (b_node (with_kids be kids') i) with (nth i nodes dummy). rewrite Hold by exact (Hst i Hi). exact (Ftl i Hi).
    + discriminate.
    + intros l E. injection E as <-. cbn [b_tail with_kids be]. change (b_node (with_kids be kids') n0) with (nth n0 nodes dummy).
      rewrite Hnew. split; [reflexivity | exact Hst].
  - split; change (b_nodes (with_kids be kids')) with nodes.
    + rewrite Hlen. fold n0. qlia.
    + intros i Hi. exact (proj1 (Tx i Hi)).
    + intros i Hi. exact (proj2 (Tx i Hi)).
    + intros i Hi Hn. change (b_node (with_kids be kids') i) with (nth i nodes dummy). rewrite Hold by exact Hi. exact (Ftx i Hn).
    + intros i Hi _. cbn [with_kids b_kids]. unfold kids'. apply app_nth1. rewrite Hkl. exact Hi.
    + reflexivity.
    + reflexivity.
    + reflexivity.
    + reflexivity.
    + reflexivity.
  - intros p Hp. assert (Hpl : p < n0) by (apply Hst; destruct st; [discriminate Hp | injection Hp as ->; left; reflexivity]).
    split.
    + change (b_node (with_kids be kids') p) with (nth p nodes dummy). rewrite Hold by exact Hpl. exact (Ftop p Hp).
    + cbn [with_kids b_kids]. unfold kids'. apply app_nth1. rewrite Hkl. exact Hpl.
Qed.

(** text *)
Lemma data_ctx : forall b rd st s, Ctx b rd st ->
  Ctx (mkB (b_nodes b) (b_kids b) (b_data b ++ [s]) (b_elem b) (b_last b) (b_tail b)) rd st.
Proof.
  intros b rd st s [[I1 I2 I3 I4 I5 I6 I7 I8] C2 C3 C4 C5 C6 C7 C8 C9]. split; auto. split; auto.
Qed.

(** what an item does inside element [p] *)
Definition ItemOK (x : item) : Prop := forall b rd p es, Ctx b rd (p :: es) ->
  (forall j, In j (nth p (b_kids b) []) -> j < length (b_nodes b)) ->
  exists b' rd', lock b rd (item_ops x) = Ok (b', rd') /\ Ctx b' rd' (p :: es) /\ Frame b rd b' rd' (p :: es)
  /\ match x with
     | Data s => told b' p = (if b_tail b then told b p else more (told b p) s) /\ b_tail b' = b_tail b /\ rd' = rd
                 /\ nth p (b_kids b') [] = nth p (b_kids b) []
     | Child t a c =>
         b_tail b' = true /\ told b' p = told b p
         /\ exists o, loop_el up false (item_tree x) (r_comments rd) = Ok (o, r_comments rd')
            /\ hdval rd' p = (match o with Some _ => if up then hdval rd p else false
                              | None => if streq t comment_tag then hdval rd p else true end)
            /\ nth p (b_kids b') [] = nth p (b_kids b) [] ++ (match o with Some _ => [length (b_nodes b)] | None => [] end)
            /\ (forall n, o = Some n -> Rep b' rd' (length (b_nodes b')) (length (b_nodes b)) n)
     end.

Lemma Reps_in : forall b rd hi cs ids lo j, Reps b rd hi lo ids cs -> In j ids -> j < hi.
Proof.
  intros b rd hi. induction cs as [|c cs IH]; intros [|i ids] lo j R Hin; cbn [Reps] in R; try contradiction.
  destruct R as (Hl & m & R & Rs). destruct Hin as [<-|Hin]; [| exact (IH _ _ _ Rs Hin)].
  apply Rep_lt in R. apply Reps_le in Rs. qlia.
Qed.

Lemma items_ok : forall l, Forall ItemOK l -> forall b rd p es acc, Ctx b rd (p :: es) ->
  Reps b rd (length (b_nodes b)) (S p) (nth p (b_kids b) []) acc ->
  exists b' rd' acc' hd', lock b rd (flat_map item_ops l) = Ok (b', rd') /\ Ctx b' rd' (p :: es) /\ Frame b rd b' rd' (p :: es)
  /\ kids_loop up (kidsof l) (hdval rd p) acc (r_comments rd) = Ok (acc', hd', r_comments rd')
  /\ Reps b' rd' (length (b_nodes b')) (S p) (nth p (b_kids b') []) acc'
  /\ hdval rd' p = hd'
  /\ told b' p = (if b_tail b then told b p else lead (told b p) l).
Proof.
  induction l as [|x l IH]; intros F b rd p es acc C R.
  - exists b, rd, acc, (hdval rd p). split; [reflexivity |]. split; [exact C |]. split; [apply Frame_refl |]. split; [reflexivity |].
    split; [exact R |]. split; [reflexivity |]. destruct (b_tail b); reflexivity.
  - inversion F as [|? ? Fx Fl]; subst.
    destruct (Fx b rd p es C (fun j Hj => Reps_in _ _ _ _ _ _ j R Hj)) as (b1 & rd1 & L1 & C1 & Fr1 & H).
    assert (Hp : p < length (b_nodes b)) by (apply (i_elem _ _ _ (c_inv _ _ _ C)); rewrite (c_elem _ _ _ C); left; reflexivity).
    assert (Rk : forall ids cs, Reps b rd (length (b_nodes b)) (S p) ids cs -> Reps b1 rd1 (length (b_nodes b)) (S p) ids cs).
    { intros ids cs R0. apply (Reps_same b rd); [exact R0 |]. intros j Hj. apply (Frame_same _ _ _ _ _ _ Fr1); [qlia |].
      cbn [hd_error]. intros E. injection E. qlia. }
    cbn [flat_map]. destruct x as [s|t a c].
    + destruct H as (Ht & Htl & -> & Hk). cbn [kidsof lead].
      destruct (IH Fl b1 rd p es acc C1) as (b2 & rd2 & acc' & hd' & L2 & C2 & Fr2 & K & R2 & Hh & Htt).
      { rewrite Hk. apply (Reps_weaken _ _ (length (b_nodes b))); [apply Rk; exact R | exact (f_len _ _ _ _ _ Fr1)]. }
      exists b2, rd2, acc', hd'. split; [rewrite lock_app, L1; exact L2 |]. split; [exact C2 |].
      split; [exact (Frame_trans _ _ _ _ _ _ _ Fr1 Fr2) |]. split; [exact K |]. split; [exact R2 |]. split; [exact Hh |].
      rewrite Htt, Htl, Ht. destruct (b_tail b); reflexivity.
    + destruct H as (Htl & Ht & o & Lo & Hh & Hk & Hr). cbn [kidsof lead].
      assert (R1 : Reps b1 rd1 (length (b_nodes b1)) (S p) (nth p (b_kids b1) []) (acc ++ match o with Some n => [n] | None => [] end)).
      { rewrite Hk. destruct o as [n|].
        - apply (Reps_snoc _ _ (length (b_nodes b))); [apply Rk; exact R | apply le_n | apply Hr; reflexivity].
        - rewrite !app_nil_r. apply (Reps_weaken _ _ (length (b_nodes b))); [apply Rk; exact R | exact (f_len _ _ _ _ _ Fr1)]. }
      destruct (IH Fl b1 rd1 p es _ C1 R1) as (b2 & rd2 & acc' & hd' & L2 & C2 & Fr2 & K & R2 & Hh2 & Htt).
      exists b2, rd2, acc', hd'. split; [rewrite lock_app, L1; exact L2 |]. split; [exact C2 |].
      split; [exact (Frame_trans _ _ _ _ _ _ _ Fr1 Fr2) |].
      split; [| split; [exact R2 |]; split; [exact Hh2 |]; rewrite Htt, Htl, Ht; destruct (b_tail b); reflexivity].
      cbn [kids_loop]. rewrite Lo. cbn [bind]. destruct o as [n|].
      * rewrite Hh in K. exact K.
      * rewrite Hh, app_nil_r in K.
        assert (Tg : xtag (item_tree (Child t a c)) = t) by (cbn [item_tree]; destruct (fold_left _ _ _); reflexivity).
        rewrite Tg. exact K.
Qed.

(** an element with its contents *)
Lemma elem_ok : forall t a c, streq t comment_tag = false -> Forall ItemOK c -> forall b rd st, Ctx b rd st ->
  (forall p, hd_error st = Some p -> forall j, In j (nth p (b_kids b) []) -> j < length (b_nodes b)) ->
  match loop_el up (is_nil st) (item_tree (Child t a c)) (r_comments rd) with
  | Raise e => lock b rd (item_ops (Child t a c)) = Raise e
  | Ok (o, p') =>
      exists b' rd', lock b rd (item_ops (Child t a c)) = Ok (b', rd') /\ Ctx b' rd' st /\ Frame b rd b' rd' st
      /\ r_comments rd' = p' /\ b_tail b' = true
      /\ r_root rd' = match st with [] => Some (length (b_nodes b)) | _ => r_root rd end
      /\ (forall n, o = Some n -> Rep b' rd' (length (b_nodes b')) (length (b_nodes b)) n)
      /\ (forall p, hd_error st = Some p ->
            n_text (b_node b' p) = told b p
            /\ hdval rd' p = (match o with Some _ => if up then hdval rd p else false | None => true end)
            /\ nth p (b_kids b') [] = nth p (b_kids b) [] ++ (match o with Some _ => [length (b_nodes b)] | None => [] end))
  end.
Proof.
  intros t a c Ht Fc b rd st C Hfresh.
  destruct (start_ctx b rd st t a C Ht) as (b1 & rd1 & L1 & O). set (n0 := length (b_nodes b)) in *.
  destruct O as [O1 O2 O3 O4 O5 O6 O7 O8 O9 O10 O11 O12 O13 O14 O15 O16]. fold n0 in O1, O2, O3, O4, O5, O6, O10, O11, O12, O13, O14, O16.
  assert (R1 : Reps b1 rd1 (length (b_nodes b1)) (S n0) (nth n0 (b_kids b1) []) []).
  { rewrite O5, O2. cbn. qlia. }
  destruct (items_ok c Fc b1 rd1 n0 st [] O1 R1) as (b2 & rd2 & cs & hd & L2 & C2 & Fr & K & R2 & Hh & Htt).
  rewrite O7 in Htt. unfold told at 2 in Htt. rewrite O7, O8 in Htt. rewrite O6, O9 in K.
  pose proof Fr as [F1 F2 F3 F4 F5 F6 F7 F8 F9 F10]. rewrite O2 in *.
  assert (Hst : forall j, In j st -> j < n0) by (intros j Hj; apply (i_elem _ _ _ (c_inv _ _ _ C)); rewrite (c_elem _ _ _ C); exact Hj).
  assert (Hne : forall j, j < n0 -> hd_error (n0 :: st) <> Some j) by (intros j Hj E; injection E; qlia).
  set (pre := match st with p :: _ => nth p (b_kids b) [] | [] => [] end).
  assert (Hq : forall q, hd_error st = Some q -> nth q (b_kids b2) [] = pre ++ [n0] /\ ~ In n0 pre).
  { intros q E. destruct st as [|p es]; [discriminate E |]. injection E as ->. unfold pre.
    assert (Hq : q < n0) by (apply Hst; left; reflexivity).
    rewrite (F5 q) by (try qlia; apply Hne; exact Hq). destruct (O16 q eq_refl) as (_ & _ & _ & _ & _ & ->). split; [reflexivity |].
    intros Hin. specialize (Hfresh q eq_refl n0 Hin). qlia. }
  assert (Tag2 : n_tag (b_node b2 n0) = t) by (rewrite F2 by qlia; exact O3).
  pose proof (end_ctx b2 rd2 n0 st t cs pre C2 Tag2 Ht R2 Hq) as E. cbn zeta in E.
  destruct (fold_kids c (None, [])) as (Fk1 & Fk2). cbn [snd fst map app] in Fk1, Fk2.
  assert (LE : loop_el up (is_nil st) (item_tree (Child t a c)) (r_comments rd)
     = let gone := (negb up && (inherit (told b2 n0) || (hdval rd2 n0 && is_nil (fst (settle (r_comments rd2) cs)))))%bool in
       if gone then if is_nil st then Raise AttributeError else Ok (None, snd (settle (r_comments rd2) cs))
       else Ok (Some (CNode t a (told b2 n0) (r_comments rd) [] (fst (settle (r_comments rd2) cs))), snd (settle (r_comments rd2) cs))).
  { cbn [item_tree]. destruct (fold_left (add_item item_tree) c (None, [])) as [tx ks] eqn:Ef. cbn [fst snd] in *.
    rewrite loop_el_eq, Ht. rewrite (kids_no_tail ks (kidsof c)) by exact Fk1. rewrite K. cbn [bind].
    change (match r_comments rd2 with
            | [] => (cs, r_comments rd2)
            | _ :: _ => match cs with [] => (cs, r_comments rd2) | _ :: _ => (upd_last (set_after (r_comments rd2)) cs, []) end
            end) with (settle (r_comments rd2) cs).
    destruct (settle (r_comments rd2) cs) as [ks' p'] eqn:Es. cbn [fst snd].
    rewrite Htt, Hh, Fk2. unfold inherit, is_nil. reflexivity. }
  rewrite LE. clear LE.
  set (gone := (negb up && (inherit (told b2 n0) || (hdval rd2 n0 && is_nil (fst (settle (r_comments rd2) cs)))))%bool) in *.
  cbn zeta.
  assert (LL : forall r, lock b2 rd2 [OEnd t] = r -> lock b rd (item_ops (Child t a c)) = r).
  { intros r Hr. cbn [item_ops]. change (OStart t a :: flat_map item_ops c ++ [OEnd t]) with ([OStart t a] ++ flat_map item_ops c ++ [OEnd t]).
    rewrite lock_app, L1. cbn [bind]. rewrite lock_app, L2. cbn [bind]. exact Hr. }
  assert (Main : (gone && is_nil st)%bool = false -> forall o, o = (if gone then None else Some (CNode t a (told b2 n0) (r_comments rd) [] (fst (settle (r_comments rd2) cs)))) ->
     exists b' rd', lock b rd (item_ops (Child t a c)) = Ok (b', rd') /\ Ctx b' rd' st /\ Frame b rd b' rd' st
      /\ r_comments rd' = snd (settle (r_comments rd2) cs) /\ b_tail b' = true
      /\ r_root rd' = match st with [] => Some n0 | _ => r_root rd end
      /\ (forall n, o = Some n -> Rep b' rd' (length (b_nodes b')) n0 n)
      /\ (forall p, hd_error st = Some p ->
            n_text (b_node b' p) = told b p
            /\ hdval rd' p = (match o with Some _ => if up then hdval rd p else false | None => true end)
            /\ nth p (b_kids b') [] = nth p (b_kids b) [] ++ (match o with Some _ => [n0] | None => [] end))).
  { intros Hg o Ho. rewrite Hg in E. destruct E as (b' & rd' & L3 & X). exists b', rd'. split; [exact (LL _ L3) |].
    destruct X as [X1 X2 X3 X4 X5 X6 X7 X8 X9 X10 X11].
    assert (Sm : forall i, i < n0 -> hd_error st <> Some i -> same_at b rd b' rd' i).
    { intros i Hi Hn. specialize (X8 i Hi Hn). specialize (O13 i Hi Hn).
      assert (S2 : same_at b1 rd1 b2 rd2 i) by (apply (Frame_same _ _ _ _ _ _ Fr); [rewrite O2; qlia | apply Hne; exact Hi]).
      unfold same_at in *. destruct X8 as (-> & -> & -> & -> & -> & ->). destruct S2 as (-> & -> & -> & -> & -> & ->). exact O13. }
    assert (Tp : forall p, hd_error st = Some p -> p < n0 /\
         n_tag (b_node b' p) = n_tag (b_node b p) /\ n_attrs (b_node b' p) = n_attrs (b_node b p) /\ n_text (b_node b' p) = told b p
         /\ dget Nat.eqb (r_before rd') p = dget Nat.eqb (r_before rd) p /\ dget Nat.eqb (r_after rd') p = dget Nat.eqb (r_after rd) p
         /\ hdval rd' p = (if up then hdval rd p else gone)
         /\ nth p (b_kids b') [] = (if gone then nth p (b_kids b) [] else nth p (b_kids b) [] ++ [n0])).
    { intros p Hp. assert (Hpl : p < n0) by (apply Hst; destruct st; [discriminate Hp | injection Hp as ->; left; reflexivity]).
      split; [exact Hpl |]. destruct (X11 p Hp) as (-> & -> & -> & -> & -> & -> & ->). destruct (O16 p Hp) as (Q1 & Q2 & Q3 & Q4 & Q5 & Q6).
      rewrite (F2 p), (F3 p), (F4 p), (F5 p), (F6 p), (F7 p) by (try qlia; apply Hne; exact Hpl).
      repeat (split; [assumption |]). split.
      - assert (Eh : hdval rd2 p = hdval rd p).
        { unfold hdval. rewrite (F9 p) by (try qlia; apply Hne; exact Hpl). rewrite O15. reflexivity. }
        rewrite Eh. reflexivity.
      - rewrite Q6. unfold pre. destruct st; [discriminate Hp | injection Hp as ->]. reflexivity. }
    split; [exact X1 |]. split.
    - split; fold n0.
      + rewrite X2. qlia.
      + intros i Hi. destruct (hd_error st) as [p|] eqn:Hp.
        * destruct (Nat.eq_dec p i) as [->|Hn]; [apply (Tp i eq_refl) |]. apply (Sm i Hi). congruence.
        * apply (Sm i Hi). congruence.
      + intros i Hi. destruct (hd_error st) as [p|] eqn:Hp.
        * destruct (Nat.eq_dec p i) as [->|Hn]; [apply (Tp i eq_refl) |]. apply (Sm i Hi). congruence.
        * apply (Sm i Hi). congruence.
      + intros i Hi Hn. apply (Sm i Hi Hn).
      + intros i Hi Hn. apply (Sm i Hi Hn).
      + intros i Hi. destruct (hd_error st) as [p|] eqn:Hp.
        * destruct (Nat.eq_dec p i) as [->|Hn]; [apply (Tp i eq_refl) |]. apply (Sm i Hi). congruence.
        * apply (Sm i Hi). congruence.
      + intros i Hi. destruct (hd_error st) as [p|] eqn:Hp.
        * destruct (Nat.eq_dec p i) as [->|Hn]; [apply (Tp i eq_refl) |]. apply (Sm i Hi). congruence.
        * apply (Sm i Hi). congruence.
      + intros i Hi. rewrite X9. rewrite F8 by qlia. apply O14. exact Hi.
      + intros i Hi Hn. rewrite X10 by exact Hn. rewrite F9 by (try qlia; apply Hne; exact Hi). rewrite O15. reflexivity.
      + intros Hs. rewrite X7. rewrite F10 by discriminate. rewrite O12. destruct st; [contradiction | reflexivity].
    - split; [exact X4 |]. split; [exact X5 |]. split; [rewrite X7; rewrite F10 by discriminate; exact O12 |].
      split.
      + intros n Hn. rewrite Ho in Hn. destruct gone; [discriminate Hn |]. injection Hn as <-.
        rewrite Tag2 in X3. rewrite (F3 n0), O4 in X3 by qlia. rewrite (F6 n0), O10 in X3 by qlia.
        rewrite (F7 n0), O11 in X3 by qlia. exact X3.
      + intros p Hp. destruct (Tp p Hp) as (T0 & T1 & T2 & T3 & T4 & T5 & T6 & T7). split; [exact T3 |]. rewrite T6, T7, Ho.
        assert (Gu : up = true -> gone = false) by (intros ->; reflexivity).
        destruct gone.
        * split; [destruct up; [discriminate (Gu eq_refl) | reflexivity] | rewrite app_nil_r; reflexivity].
        * split; reflexivity. }
  destruct gone eqn:G.
  - destruct (is_nil st) eqn:Hs.
    + apply LL. exact E.
    + apply Main; reflexivity.
  - apply Main; reflexivity.
Qed.

Lemma item_ok : forall x, proper x -> ItemOK x.
Proof.
  induction x as [s|t a c IH] using item_ind'; intros Px.
  - intros b rd p es C Hf. do 2 eexists. split; [reflexivity |]. split; [apply data_ctx; exact C |].
    split; [split; auto |]. split; [| auto]. unfold told. cbn [b_tail b_data]. destruct (b_tail b); [reflexivity |].
    destruct (b_data b) as [|d ds]; cbn [app more concat]; [rewrite app_nil_r; reflexivity |].
    unfold more. f_equal. rewrite concat_app. cbn. rewrite app_nil_r, app_assoc. reflexivity.
  - inversion Px as [|? ? ? Hc Fc]; subst.
    assert (OK : Forall ItemOK c).
    { clear - IH Fc. induction c as [|x c IHc]; constructor; inversion IH; inversion Fc; subst; auto. }
    intros b rd p es C Hf.
    destruct (streq t comment_tag) eqn:T.
    + apply streq_true in T. subst t. rewrite (Hc eq_refl). cbn [item_ops flat_map app].
      destruct (comment_ctx b rd (p :: es) a C) as (b' & rd' & L & C' & Fr & Tl & Hh & Hr & Hm & Hp).
      { intros q E. injection E as <-. exact Hf. }
      exists b', rd'. split; [exact L |]. split; [exact C' |]. split; [exact Fr |]. split; [exact Tl |].
      destruct (Hp p eq_refl) as (Hp1 & Hp2).
      split; [unfold told; rewrite Tl; exact Hp1 |]. exists None. split; [| split; [| split; [rewrite app_nil_r; exact Hp2 | discriminate]]].
      * cbn [item_tree fold_left]. rewrite loop_el_eq. rewrite streq_refl, Hm. reflexivity.
      * unfold hdval. rewrite Hh. reflexivity.
    + assert (Hf' : forall q, hd_error (p :: es) = Some q -> forall j, In j (nth q (b_kids b) []) -> j < length (b_nodes b)).
      { intros q E. injection E as <-. exact Hf. }
      pose proof (elem_ok t a c T OK b rd (p :: es) C Hf') as E. cbn [is_nil] in E.
      destruct (loop_el up false (item_tree (Child t a c)) (r_comments rd)) as [[o p']|e] eqn:L.
      * destruct E as (b' & rd' & L' & C' & Fr & Hm & Tl & Hr & Hrep & Hp). exists b', rd'.
        split; [exact L' |]. split; [exact C' |]. split; [exact Fr |]. split; [exact Tl |].
        destruct (Hp p eq_refl) as (Hp1 & Hp2 & Hp3).
        split; [unfold told at 1; rewrite Tl; exact Hp1 |]. exists o. split; [rewrite Hm; reflexivity |].
        split; [exact Hp2 |]. split; [exact Hp3 | exact Hrep].
      * exfalso. destruct (item_tree (Child t a c)) as [t' a' x' y' k'] eqn:Ei.
        assert (NR : forall n q, exists r, loop_el up false n q = Ok r).
        { clear. induction n as [t a x y k IHk] using xnode_ind'. intros q. rewrite loop_el_eq.
          destruct (streq t comment_tag); [eexists; reflexivity |].
          assert (KR : forall hd acc q, exists r, kids_loop up k hd acc q = Ok r).
          { induction k as [|k0 k IH]; intros hd acc q0; [eexists; reflexivity |]. inversion IHk; subst. cbn [kids_loop].
            destruct (H1 q0) as ([[cn|] q1] & ->); cbn [bind]; apply IH; assumption. }
          destruct (KR false [] []) as ([[ks hd] p] & ->). cbn [bind].
          destruct (match p, ks with _ :: _, _ :: _ => (upd_last (set_after p) ks, []) | _, _ => (ks, p) end) as [ks' p'].
          destruct (negb up && _)%bool; eexists; reflexivity. }
        destruct (NR (XNode t' a' x' y' k') (r_comments rd)) as (r & Er). rewrite Er in L. discriminate L.
Qed.
End Tree.

(** ** Documents *)
(** A document as it is written: text, comments and elements *)
Inductive part :=
| PText (s : pystr)
| PComment (s : pystr)
| PElem (name : pystr) (attrs : list (pystr * pystr)) (content : list part).
(** what expat calls for it *)
Fixpoint calls (x : part) : list raw :=
  match x with
  | PText s => [XData s]
  | PComment s => [XComment s]
  | PElem n a c => XStart n (flat_map (fun kv => [fst kv; snd kv]) a) :: flat_map calls c ++ [XEnd n]
  end.
(** it as M_TreeBuilder takes it: comments are elements of a tag of their own, and names that
    have a namespace get the first brace *)
Fixpoint item_of (x : part) : item :=
  match x with
  | PText s => Data s
  | PComment s => Child (lit "!--") [(lit "text", s)] []
  | PElem n a c => Child (fixname n) (fold_left (fun d kv => dset streq d (fixname (fst kv)) (snd kv)) a []) (map item_of c)
  end.
(** no element is called "!--", which is not a name in XML *)
Inductive well : part -> Prop :=
| W_text s : well (PText s)
| W_comment s : well (PComment s)
| W_elem n a c : n <> lit "!--" -> Forall well c -> well (PElem n a c).
(** comments, the root element, comments *)
Definition document (pre : list pystr) (root : part) (post : list pystr) : list raw :=
  flat_map calls (map PComment pre ++ [root] ++ map PComment post).

Lemma part_ind' (P : part -> Prop) :
  (forall s, P (PText s)) -> (forall s, P (PComment s)) ->
  (forall n a c, Forall P c -> P (PElem n a c)) -> forall x, P x.
Proof.
  intros H1 H2 H3. fix IH 1. intros [s|s|n a c]; [apply H1 | apply H2 |]. apply H3.
  induction c as [|x c IHc]; constructor; auto.
Qed.

Lemma nested_part : forall x open rest, nested open (calls x ++ rest) = nested open rest.
Proof.
  induction x as [s|s|n a c IH] using part_ind'; intros open rest; try reflexivity.
  cbn [calls app nested].
  assert (Ev : Nat.even (length (flat_map (fun kv : pystr * pystr => [fst kv; snd kv]) a)) = true).
  { clear. induction a as [|kv a IH]; [reflexivity | exact IH]. }
  rewrite Ev. cbn [andb].
  assert (L : forall l o r, Forall (fun x => forall open rest, nested open (calls x ++ rest) = nested open rest) l ->
                nested o (flat_map calls l ++ r) = nested o r).
  { clear. induction l as [|x l IH]; intros o r F; [reflexivity |]. inversion F as [|? ? F1 F2]; subst. cbn [flat_map]. rewrite <- app_assoc, F1. apply IH. exact F2. }
  rewrite <- app_assoc, L by exact IH. cbn [app nested]. rewrite streq_refl. reflexivity.
Qed.
Lemma nested_parts : forall l, nested [] (flat_map calls l) = true.
Proof.
  intros l. rewrite <- (app_nil_r (flat_map calls l)).
  assert (L : forall r, nested [] (flat_map calls l ++ r) = nested [] r).
  { induction l as [|x l IH]; intros r; [reflexivity |]. cbn [flat_map]. rewrite <- app_assoc, nested_part. apply IH. }
  apply L.
Qed.

Section Doc.
Variable ws : N -> bool.

Lemma attr_dict_fold : forall a d,
  attr_dict d (flat_map (fun kv => [fst kv; snd kv]) a) = Ok (fold_left (fun d kv => dset streq d (fixname (fst kv)) (snd kv)) a d).
Proof. induction a as [|[k v] a IH]; intros d; [reflexivity |]. cbn [flat_map app attr_dict fold_left fst snd]. apply IH. Qed.

Definition plain (x : raw) (os : list op) : Prop := forall dt, handle ws dt x = Ok (os, dt).
Lemma fed_plain : forall xs oss b dt, Forall2 plain xs oss ->
  fed ws b dt xs = do (b', q) <- b_ops b (concat oss); Ok (mkS b' dt q r_init).
Proof.
  intros xs oss b dt F. revert b. induction F as [|x os xs oss Hx F IH]; intros b; [reflexivity |].
  rewrite fed_cons, (Hx dt). cbn [concat].
  assert (A : forall l m b, b_ops b (l ++ m) = do (b1, q1) <- b_ops b l; do (b2, q2) <- b_ops b1 m; Ok (b2, q1 ++ q2)).
  { clear. induction l as [|o l IH]; intros m b; cbn [app b_ops bind].
    - destruct (b_ops b m) as [[b2 q2]|e]; reflexivity.
    - destruct (b_op b o) as [[b1 q1]|e]; cbn [bind]; [| reflexivity]. rewrite IH.
      destruct (b_ops b1 l) as [[b2 q2]|e]; cbn [bind]; [| reflexivity].
      destruct (b_ops b2 m) as [[b3 q3]|e]; cbn [bind]; [| reflexivity]. rewrite app_assoc. reflexivity. }
  rewrite A. destruct (b_ops b os) as [[b1 q1]|e]; cbn [bind]; [| reflexivity]. rewrite IH.
  destruct (b_ops b1 (concat oss)) as [[b2 q2]|e]; reflexivity.
Qed.
Lemma calls_plain : forall x, exists oss, Forall2 plain (calls x) oss /\ concat oss = item_ops (item_of x).
Proof.
  induction x as [s|s|n a c IH] using part_ind'.
  - exists [[OData s]]. split; [constructor; [intros dt; reflexivity | constructor] | reflexivity].
  - exists [[OStart (lit "!--") [(lit "text", s)]; OEnd (lit "!--")]]. split; [constructor; [intros dt; reflexivity | constructor] | reflexivity].
  - assert (L : exists oss, Forall2 plain (flat_map calls c) oss /\ concat oss = flat_map item_ops (map item_of c)).
    { induction c as [|x c IHc]; [exists []; split; [constructor | reflexivity] |]. inversion IH as [|? ? H1 H2]; subst.
      destruct H1 as (o1 & F1 & E1). destruct (IHc H2) as (o2 & F2 & E2). exists (o1 ++ o2). split; [apply Forall2_app; assumption |].
      rewrite concat_app, E1, E2. reflexivity. }
    destruct L as (oss & F & E).
    exists ([OStart (fixname n) (fold_left (fun d kv => dset streq d (fixname (fst kv)) (snd kv)) a [])] :: oss ++ [[OEnd (fixname n)]]).
    split.
    + cbn [calls]. constructor; [intros dt; cbn [handle]; rewrite attr_dict_fold; reflexivity |].
      apply Forall2_app; [exact F | constructor; [intros dt; reflexivity | constructor]].
    + cbn [concat item_of item_ops app]. rewrite concat_app, E. reflexivity.
Qed.
Lemma parts_plain : forall l, exists oss, Forall2 plain (flat_map calls l) oss /\ concat oss = flat_map item_ops (map item_of l).
Proof.
  induction l as [|x l (o2 & F2 & E2)]; [exists []; split; [constructor | reflexivity] |].
  destruct (calls_plain x) as (o1 & F1 & E1). exists (o1 ++ o2). split; [apply Forall2_app; assumption |].
  rewrite concat_app, E1, E2. reflexivity.
Qed.

Lemma fixname_comment : forall n, n <> lit "!--" -> fixname n <> comment_tag.
Proof. intros n H E. unfold fixname in E. destruct (existsb (N.eqb 125) n); [discriminate E | exact (H E)]. Qed.
Lemma well_proper : forall x, well x -> proper (item_of x).
Proof.
  induction x as [s|s|n a c IH] using part_ind'; intros W; cbn [item_of]; constructor.
  - reflexivity.
  - constructor.
  - intros E. inversion W; subst. exfalso. exact (fixname_comment n H1 E).
  - inversion W as [| |? ? ? H1 H2]; subst. clear - IH H2. induction c as [|x c IHc]; constructor; inversion IH; inversion H2; subst; auto.
Qed.

(** element [i] of the state, its attributes, text, comments and children are those of [d] *)
Inductive shows (s : state) : nat -> cnode -> Prop :=
| Shows : forall i t a x bf af ks,
    n_tag (b_node (s_b s) i) = t -> n_attrs (b_node (s_b s) i) = a -> n_text (b_node (s_b s) i) = x ->
    orl (dget Nat.eqb (r_before (s_r s)) i) = bf -> orl (dget Nat.eqb (r_after (s_r s)) i) = af ->
    Forall2 (shows s) (nth i (b_kids (s_b s)) []) ks ->
    shows s i (CNode t a x bf af ks).
Lemma Rep_shows : forall s c hi i, Rep (s_b s) (s_r s) hi i c -> shows s i c.
Proof.
  intros s. induction c as [t a x bf af ks IH] using cnode_ind'. intros hi i R.
  apply (proj1 (Rep_eq _ _ _ _ _ _ _ _ _ _)) in R. destruct R as (R1 & R2 & R3 & R4 & R5 & R6 & R7).
  constructor; try assumption. generalize dependent (nth i (b_kids (s_b s)) []). generalize (S i). clear - IH.
  induction ks as [|c ks IHk]; intros lo [|j ids] R; cbn [Reps] in R; try contradiction; [constructor |].
  inversion IH as [|? ? H1 H2]; subst. destruct R as (_ & m & R & Rs). constructor; [exact (H1 _ _ R) |]. exact (IHk H2 _ _ Rs).
Qed.

Variable up : bool.

Lemma top_comments : forall l b rd, Ctx b rd [] ->
  exists b' rd', lock up b rd (flat_map item_ops (map item_of (map PComment l))) = Ok (b', rd')
  /\ Ctx b' rd' [] /\ Frame b rd b' rd' [] /\ r_root rd' = r_root rd /\ r_comments rd' = r_comments rd ++ l
  /\ (b_last b <> None -> b_last b' <> None).
Proof.
  induction l as [|c l IH]; intros b rd C.
  - exists b, rd. split; [reflexivity |]. split; [exact C |]. split; [apply Frame_refl |]. split; [reflexivity |].
    rewrite app_nil_r. split; [reflexivity | auto].
  - cbn [map flat_map item_of item_ops app].
    destruct (comment_ctx up b rd [] [(lit "text", c)] C) as (b1 & rd1 & L1 & C1 & Fr1 & Tl & Hh & Hr & Hm & _); [discriminate |].
    destruct (IH b1 rd1 C1) as (b2 & rd2 & L2 & C2 & Fr2 & Hr2 & Hm2 & Hl). exists b2, rd2. split.
    { change (OStart (lit "!--") [(lit "text", c)] :: OEnd (lit "!--") :: flat_map item_ops (map item_of (map PComment l)))
        with ([OStart comment_tag [(lit "text", c)]; OEnd comment_tag] ++ flat_map item_ops (map item_of (map PComment l))).
      rewrite lock_app, L1. exact L2. }
    split; [exact C2 |]. split; [exact (Frame_trans _ _ _ _ _ _ _ Fr1 Fr2) |]. split; [congruence |].
    assert (D : dget streq [(lit "text", c)] (lit "text") = Some c) by (cbn [dget]; rewrite streq_refl; reflexivity).
    rewrite D in Hm. split; [rewrite Hm2, Hm, <- app_assoc; reflexivity |].
    intros Hb. apply Hl. intros E.
    cbn [lock] in L1. destruct (b_op b (OStart comment_tag [(lit "text", c)])) as [[x q]|]; cbn [bind] in L1; [| discriminate].
    destruct (r_run up x rd q) as [[y r]|]; cbn [bind] in L1; [| discriminate].
    destruct (b_op y (OEnd comment_tag)) as [[z q2]|] eqn:Oe; cbn [bind] in L1; [| discriminate].
    destruct (r_run up z r q2) as [[w r2]|] eqn:Rw; cbn [bind] in L1; [| discriminate]. injection L1 as <- <-.
    assert (K : forall qs b0 r0 b3 r3, r_run up b0 r0 qs = Ok (b3, r3) -> b_last b3 = b_last b0).
    { clear. induction qs as [|q qs IH]; intros b0 r0 b3 r3 H; cbn [r_run] in H; [injection H as <- _; reflexivity |].
      destruct (r_step up (b_nodes b0) (b_kids b0) r0 q) as [[k r']|]; cbn [bind] in H; [| discriminate]. rewrite (IH _ _ _ _ H). reflexivity. }
    rewrite (K _ _ _ _ _ Rw) in E. cbn [b_op] in Oe. destruct (b_flush y) as [f|]; cbn [bind] in Oe; [| discriminate].
    destruct (b_elem f); [discriminate |]. destruct (streq _ comment_tag); [| discriminate]. injection Oe as <- _. discriminate E.
Qed.

Lemma lock_last : forall os b rd b' rd', lock up b rd os = Ok (b', rd') -> b_last b <> None -> b_last b' <> None.
Proof.
  assert (K : forall qs b0 r0 b3 r3, r_run up b0 r0 qs = Ok (b3, r3) -> b_last b3 = b_last b0).
  { induction qs as [|q qs IH]; intros b0 r0 b3 r3 H; cbn [r_run] in H; [injection H as <- _; reflexivity |].
    destruct (r_step up (b_nodes b0) (b_kids b0) r0 q) as [[k r']|]; cbn [bind] in H; [| discriminate]. rewrite (IH _ _ _ _ H). reflexivity. }
  induction os as [|o os IH]; intros b rd b' rd' H Hb; cbn [lock] in H; [injection H as <- _; exact Hb |].
  destruct (b_op b o) as [[b1 q]|] eqn:O; cbn [bind] in H; [| discriminate].
  destruct (r_run up b1 rd q) as [[b2 r2]|] eqn:R; cbn [bind] in H; [| discriminate].
  apply (IH _ _ _ _ H). rewrite (K _ _ _ _ _ R). destruct o as [t a|t|s|p u]; cbn [b_op] in O.
  - destruct (b_flush b); cbn [bind] in O; [| discriminate]. injection O as <- _. discriminate.
  - destruct (b_flush b) as [f|]; cbn [bind] in O; [| discriminate]. destruct (b_elem f); [discriminate |].
    destruct (streq _ t); [| discriminate]. injection O as <- _. discriminate.
  - injection O as <- _. exact Hb.
  - injection O as <- _. exact Hb.
Qed.

(** Loading a document gives what [read_loop] says of its tree. *)
Theorem C80_document : forall pre post n a c, well (PElem n a c) ->
  match read_loop up (item_tree (item_of (PElem n a c))) pre with
  | Ok d => exists s i, load up ws s_init [document pre (PElem n a c) post] = Ok s
                        /\ r_root (s_r s) = Some i /\ shows s i d
  | Raise e => load up ws s_init [document pre (PElem n a c) post] = Raise e
  end.
Proof.
  intros pre post n a c W. set (root := PElem n a c) in *. set (xs := document pre root post).
  destruct (parts_plain (map PComment pre ++ [root] ++ map PComment post)) as (oss & Fp & Eo).
  pose proof (nested_parts (map PComment pre ++ [root] ++ map PComment post)) as Ns.
  destruct (doc_feeds up ws _ Ns) as (s0 & Fd). rewrite (fed_plain _ _ _ _ Fp) in Fd.
  rewrite Eo in Fd. set (os := flat_map item_ops (map item_of (map PComment pre ++ [root] ++ map PComment post))) in *.
  destruct (b_ops b_init os) as [[bb qq]|e] eqn:Bo; cbn [bind] in Fd; [| discriminate]. clear Fd.
  assert (Ld : load up ws s_init [xs] = fin up (do (b, rd) <- lock up b_init r_init os; Ok (mkS b None [] rd))).
  { rewrite (load_all up ws [xs]); cbn [concat]; rewrite app_nil_r.
    - f_equal. unfold run. change s_init with (mkS b_init None [] r_init). rewrite feed_frame.
      unfold xs, document. rewrite (fed_plain _ _ _ _ Fp), Eo, Bo. cbn [bind app]. unfold read_events. cbn [s_b s_r s_queue s_dt].
      rewrite (lock_all up os b_init bb r_init qq); [reflexivity | exact init_inv | exact Bo].
    - apply (doc_feeds up ws). exact Ns. }
  rewrite Ld. clear Ld.
  assert (C0 : Ctx b_init r_init []).
  { split; cbn; auto; try contradiction; try discriminate. exact init_inv. }
  destruct (top_comments pre b_init r_init C0) as (b1 & rd1 & L1 & C1 & _ & _ & Hm & _). cbn [r_comments r_init app] in Hm.
  assert (HW : n <> lit "!--" /\ Forall well c) by (inversion W; auto). destruct HW as (Hn & Fw).
  assert (Tn : streq (fixname n) comment_tag = false) by (apply streq_false; apply fixname_comment; exact Hn).
  assert (OK : Forall (ItemOK up) (map item_of c)).
  { clear - Fw. induction Fw as [|x c Hx Fw IH]; constructor; [apply item_ok, well_proper; exact Hx | exact IH]. }
  set (aa := fold_left (fun d kv => dset streq d (fixname (fst kv)) (snd kv)) a []) in *.
  pose proof (elem_ok up (fixname n) aa (map item_of c) Tn OK b1 rd1 [] C1) as E. cbn [is_nil] in E.
  specialize (E (fun p Hp => ltac:(discriminate Hp))).
  assert (Os : os = flat_map item_ops (map item_of (map PComment pre)) ++ item_ops (item_of root) ++ flat_map item_ops (map item_of (map PComment post))).
  { unfold os. rewrite !map_app, !flat_map_app. cbn [map flat_map]. rewrite app_nil_r. reflexivity. }
  rewrite Os, lock_app, L1. cbn [bind]. rewrite lock_app.
  change (item_of root) with (Child (fixname n) aa (map item_of c)) in *.
  unfold read_loop. rewrite Hm in E.
  destruct (loop_el up true (item_tree (Child (fixname n) aa (map item_of c))) pre) as [[o p']|e] eqn:Lo; cbn [bind].
  - destruct E as (b2 & rd2 & L2 & C2 & Fr2 & Hm2 & Tl & Hr & Hrep & _). rewrite L2. cbn [bind].
    destruct o as [d|].
    + destruct (top_comments post b2 rd2 C2) as (b3 & rd3 & L3 & C3 & Fr3 & Hr3 & Hm3 & Hl). rewrite L3. cbn [bind].
      assert (La : b_last b3 <> None).
      { apply Hl. destruct (b_last b2) eqn:El; [discriminate |]. exfalso.
        change (OStart (fixname n) aa :: flat_map item_ops (map item_of c) ++ [OEnd (fixname n)])
          with ([OStart (fixname n) aa] ++ (flat_map item_ops (map item_of c) ++ [OEnd (fixname n)])) in L2.
        cbn [item_ops] in L2.
        change (OStart (fixname n) aa :: flat_map item_ops (map item_of c) ++ [OEnd (fixname n)])
          with ([OStart (fixname n) aa] ++ (flat_map item_ops (map item_of c) ++ [OEnd (fixname n)])) in L2.
        rewrite lock_app in L2. destruct (start_ctx up b1 rd1 [] (fixname n) aa C1 Tn) as (bx & rx & Lx & Ox).
        rewrite Lx in L2. cbn [bind] in L2. apply (lock_last _ _ _ _ _ L2); [| exact El].
        apply (c_some _ _ _ (o_ctx _ _ _ _ _ _ _ Ox)). discriminate. }
      exists (mkS b3 None [] rd3), (length (b_nodes b1)). unfold fin. cbn [bind]. unfold close. cbn [s_b].
      rewrite (c_elem _ _ _ C3). destruct (b_last b3) as [l|] eqn:El; [| contradiction]. cbn [bind].
      split; [reflexivity |]. cbn [s_r]. split; [rewrite Hr3; exact Hr |].
      apply (Rep_shows _ d (length (b_nodes b2))). apply (Rep_same b2 rd2); [apply Hrep; reflexivity |].
      intros j Hj. apply (Frame_same _ _ _ _ _ _ Fr3); [qlia | discriminate].
    + exfalso. cbn [item_tree] in Lo. destruct (fold_left (add_item item_tree) (map item_of c) (None, [])) as [tx ks].
      rewrite loop_el_eq, Tn in Lo. destruct (kids_loop up ks false [] []) as [[[k hd] q]|]; cbn [bind] in Lo; [| discriminate].
      destruct (match q, k with _ :: _, _ :: _ => (upd_last (set_after q) k, []) | _, _ => (k, q) end) as [k' q'].
      destruct (negb up && _)%bool; discriminate Lo.
  - rewrite E. reflexivity.
Qed.
End Doc.

(** ** Declarations *)
(** calls that are not about the tree *)
Definition visible (x : raw) : bool := match x with XNs _ _ | XDefault _ => false | _ => true end.
Definition is_qns (q : qev) : bool := match q with QNs _ _ => true | _ => false end.
(** no entity that is not declared *)
Definition no_entity (x : raw) : Prop := match x with XDefault (38%N :: _) => False | _ => True end.
(** the loop's variables but for the namespaces *)
Definition sans_ns (rd : reader) : reader :=
  mkR (r_curr rd) (r_root rd) (r_comments rd) [] (r_before rd) (r_after rd) (r_parent rd) (r_hdc rd).
(** what has been loaded, but for the namespaces *)
Definition seen (r : res state) : res (list node * list (list nat) * reader) :=
  match loaded r with Ok (n, k, rd) => Ok (n, k, sans_ns rd) | Raise e => Raise e end.

Section Quiet.
Variable up : bool.
Variable ws : N -> bool.

Lemma default_quiet : forall s dt, no_entity (XDefault s) -> exists dt', default ws dt s = Ok dt'.
Proof.
  intros s dt H. unfold default.
  destruct s as [|ch s']; [| destruct (N.eq_dec ch 38) as [->|Hc]; [contradiction |]];
    repeat match goal with
           | |- exists _, match ?t with _ => _ end = _ => destruct t; try (eexists; reflexivity)
           | |- exists _, (if ?t then _ else _) = _ => destruct t; try (eexists; reflexivity)
           end; try contradiction; try (exfalso; apply Hc; reflexivity).
Qed.

Lemma handle_dt : forall x dt dt', visible x = true ->
  match handle ws dt x, handle ws dt' x with
  | Ok (os, d), Ok (os', d') => os = os' /\ (forall q, In q os -> match q with ONs _ _ => False | _ => True end)
  | Raise e, Raise e' => e = e'
  | _, _ => False
  end.
Proof.
  intros [n a|n|s|s|p u|s|] dt dt' V; try discriminate V; cbn [handle]; try (split; [reflexivity |]; intros q [<-|[]]; exact I); [| | reflexivity].
  - destruct (attr_dict [] a); cbn [bind]; [| reflexivity]. split; [reflexivity |]. intros q [<-|[]]; exact I.
  - cbn [attr_dict bind]. split; [reflexivity |]. intros q [<-|[<-|[]]]; exact I.
Qed.
Lemma ops_visible : forall os b b' q, (forall o, In o os -> match o with ONs _ _ => False | _ => True end) ->
  b_ops b os = Ok (b', q) -> filter (fun e => negb (is_qns e)) q = q.
Proof.
  induction os as [|o os IH]; intros b b' q H E; cbn [b_ops] in E; [injection E as <- <-; reflexivity |].
  destruct (b_op b o) as [[b1 q1]|] eqn:E1; cbn [bind] in E; [| discriminate].
  destruct (b_ops b1 os) as [[b2 q2]|] eqn:E2; cbn [bind] in E; [| discriminate]. injection E as <- <-.
  rewrite filter_app, (IH b1 b2 q2) by (try exact E2; intros o' Ho'; apply H; right; exact Ho'). f_equal.
  pose proof (H o (or_introl eq_refl)) as Ho. destruct o as [t a|t|s|p u]; cbn [b_op] in E1; [| | | contradiction].
  - destruct (b_flush b); cbn [bind] in E1; [| discriminate]. injection E1 as <- <-. reflexivity.
  - destruct (b_flush b) as [f|]; cbn [bind] in E1; [| discriminate]. destruct (b_elem f); [discriminate |].
    destruct (streq _ t); [| discriminate]. injection E1 as <- <-. reflexivity.
  - injection E1 as <- <-. reflexivity.
Qed.
Lemma fed_quiet : forall xs b dt dt', Forall no_entity xs ->
  match fed ws b dt xs, fed ws b dt' (filter visible xs) with
  | Ok s, Ok s' => s_b s = s_b s' /\ filter (fun e => negb (is_qns e)) (s_queue s) = s_queue s'
  | Raise e, Raise e' => e = e'
  | _, _ => False
  end.
Proof.
  induction xs as [|x xs IH]; intros b dt dt' F; [split; reflexivity |]. inversion F as [|? ? Fx Fl]; subst.
  cbn [filter]. destruct (visible x) eqn:V.
  - rewrite !fed_cons. pose proof (handle_dt x dt dt' V) as H.
    destruct (handle ws dt x) as [[os d]|e], (handle ws dt' x) as [[os' d']|e']; try contradiction.
    + destruct H as (<- & Ho). destruct (b_ops b os) as [[b' q]|e] eqn:E; cbn [bind]; [| reflexivity].
      specialize (IH b' d d' Fl). destruct (fed ws b' d xs) as [s|], (fed ws b' d' (filter visible xs)) as [s'|]; try contradiction; [| exact IH].
      cbn [s_b s_queue]. destruct IH as (H1 & H2). split; [exact H1 |]. rewrite filter_app, H2, (ops_visible os b b' q Ho E). reflexivity.
    + subst e'. destruct e; try reflexivity. split; reflexivity.
  - rewrite fed_cons. destruct x as [n a|n|s|s|p u|s|]; try discriminate V; cbn [handle].
    + cbn [b_ops b_op bind app]. specialize (IH b dt dt' Fl).
      destruct (fed ws b dt xs) as [s|], (fed ws b dt' (filter visible xs)) as [s'|]; try contradiction; [| exact IH].
      cbn [s_b s_queue app filter is_qns negb]. exact IH.
    + destruct (default_quiet s dt Fx) as (d1 & ->). cbn [b_ops bind app]. specialize (IH b d1 dt' Fl).
      destruct (fed ws b d1 xs) as [s1|], (fed ws b dt' (filter visible xs)) as [s'|]; try contradiction; [| exact IH].
      cbn [s_b s_queue app filter is_qns negb]. exact IH.
Qed.

Lemma step_ns : forall nodes kids rd q, is_qns q = false -> forall rd', sans_ns rd = sans_ns rd' ->
  match r_step up nodes kids rd q, r_step up nodes kids rd' q with
  | Ok (k, r), Ok (k', r') => k = k' /\ sans_ns r = sans_ns r'
  | Raise e, Raise e' => e = e'
  | _, _ => False
  end.
Proof.
  intros nodes kids [a1 a2 a3 a4 a5 a6 a7 a8] q Hq [c1 c2 c3 c4 c5 c6 c7 c8] H. unfold sans_ns in H. cbn in H. injection H as <- <- <- <- <- <- <-.
  destruct q as [i|i|p u|e]; try discriminate Hq; cbn [r_step r_curr r_root r_comments r_ns r_before r_after r_parent r_hdc]; [| | reflexivity].
  - destruct (streq _ comment_tag); [split; reflexivity |]. destruct a1; split; reflexivity.
  - destruct (streq _ comment_tag).
    + destruct a1 as [c|]; [| split; reflexivity]. destruct (take_out kids (Some c) i); cbn [bind]; [split; reflexivity | reflexivity].
    + destruct a3 as [|c0 pc]; destruct (rev (nth i kids [])) as [|k rk]; destruct up; try (split; reflexivity);
        (destruct (_ || _)%bool;
         [ destruct (take_out kids (dget Nat.eqb a7 i) i); cbn [bind]; [| reflexivity]; destruct (dget Nat.eqb a7 i); [split; reflexivity | reflexivity]
         | destruct (dget Nat.eqb a7 i); split; reflexivity ]).
Qed.
Lemma run_ns : forall qs b rd rd', sans_ns rd = sans_ns rd' ->
  match r_run up b rd qs, r_run up b rd' (filter (fun e => negb (is_qns e)) qs) with
  | Ok (c, r), Ok (c', r') => c = c' /\ sans_ns r = sans_ns r'
  | Raise e, Raise e' => e = e'
  | _, _ => False
  end.
Proof.
  induction qs as [|q qs IH]; intros b rd rd' H; [split; [reflexivity | exact H] |].
  cbn [filter]. destruct (is_qns q) eqn:Q; cbn [negb].
  - destruct q; try discriminate Q. cbn [r_run r_step bind]. rewrite <- (with_kids_same b (b_kids b) eq_refl). apply IH. exact H.
  - cbn [r_run]. pose proof (step_ns (b_nodes b) (b_kids b) rd q Q rd' H) as St.
    destruct (r_step up (b_nodes b) (b_kids b) rd q) as [[k r]|e], (r_step up (b_nodes b) (b_kids b) rd' q) as [[k' r']|e']; try contradiction; [| exact St].
    destruct St as (<- & St). cbn [bind]. apply IH. exact St.
Qed.

(** Declarations of namespaces, and the document type, do not change what is loaded, apart
    from the namespaces themselves. *)
Lemma quiet : forall xs, nested [] xs = true -> Forall no_entity xs ->
  seen (load up ws s_init [xs]) = seen (load up ws s_init [filter visible xs]).
Proof.
  intros xs Hn He.
  assert (Hv : forall l open, nested open l = true -> nested open (filter visible l) = true).
  { induction l as [|x l IH]; intros open H; [reflexivity |]. destruct x as [n a|n|s|s|p u|s|]; cbn [filter visible nested] in *; auto.
    - apply andb_prop in H. destruct H as (-> & H). cbn. apply IH. exact H.
    - destruct open as [|m o]; [discriminate |]. apply andb_prop in H. destruct H as (-> & H). cbn. apply IH. exact H. }
  rewrite (load_all up ws [xs]), (load_all up ws [filter visible xs]); cbn [concat]; rewrite ?app_nil_r;
    [| apply (doc_feeds up ws), Hv, Hn | apply (doc_feeds up ws), Hn].
  unfold run. change s_init with (mkS b_init None [] r_init). rewrite !feed_frame.
  pose proof (fed_quiet xs b_init None None He) as F.
  destruct (fed ws b_init None xs) as [s|e], (fed ws b_init None (filter visible xs)) as [s'|e']; try contradiction; [| cbn; congruence].
  destruct F as (F1 & F2). cbn [bind app]. unfold read_events. cbn [s_b s_r s_queue s_dt].
  rewrite <- F1, <- F2. pose proof (run_ns (s_queue s) (s_b s) r_init r_init eq_refl) as R.
  destruct (r_run up (s_b s) r_init (s_queue s)) as [[c r]|e], (r_run up (s_b s) r_init (filter (fun e => negb (is_qns e)) (s_queue s))) as [[c' r']|e'];
    try contradiction; [| cbn; congruence].
  destruct R as (<- & R). cbn [bind fin]. unfold close. cbn [s_b]. destruct (b_elem c); [| reflexivity].
  destruct (b_last c); [| reflexivity]. cbn. unfold seen. cbn. rewrite R. reflexivity.
Qed.

(** A document is loaded as what [read_loop] says of its tree, however the input is divided
    into chunks, in whatever pieces the text comes, and wherever namespaces are declared. *)
Theorem C80_document_chunks : forall pre post n a c, well (PElem n a c) ->
  forall chunks, nested [] (concat chunks) = true -> Forall no_entity (concat chunks) ->
  joined (filter visible (concat chunks)) = joined (document pre (PElem n a c) post) ->
  match read_loop up (item_tree (item_of (PElem n a c))) pre with
  | Ok d => exists s i, load up ws s_init chunks = Ok s /\ r_root (s_r s) = Some i /\ shows s i d
  | Raise e => load up ws s_init chunks = Raise e
  end.
Proof.
  intros pre post n a c W chunks Hn He J.
  assert (Eq : seen (load up ws s_init chunks) = seen (load up ws s_init [document pre (PElem n a c) post])).
  { rewrite (C80_chunks up ws (concat chunks) Hn chunks eq_refl). rewrite (quiet _ Hn He). unfold seen. f_equal.
    rewrite (C80_pieces up ws (document pre (PElem n a c) post)) with (chunks := [filter visible (concat chunks)]).
    - reflexivity.
    - apply nested_parts.
    - cbn [concat]. rewrite app_nil_r. exact J. }
  pose proof (C80_document ws up pre post n a c W) as D.
  destruct (read_loop up (item_tree (item_of (PElem n a c))) pre) as [d|e].
  - destruct D as (s & i & L & R & Sh). rewrite L in Eq. unfold seen in Eq. cbn [loaded] in Eq.
    destruct (load up ws s_init chunks) as [s'|e]; cbn [loaded] in Eq; [| discriminate]. injection Eq as E1 E2 E3 E4 E5 E6 E7 E8 E9.
    exists s', i. split; [reflexivity |]. split; [rewrite E4; exact R |].
    assert (T : forall d i, shows s i d -> shows s' i d).
    { clear - E1 E2 E6 E7. induction d as [t a x bf af ks IH] using cnode_ind'. intros i H.
      inversion H as [? ? ? ? ? ? ? H1 H2 H3 H4 H5 H6]; subst. unfold b_node in *. constructor; unfold b_node; rewrite ?E1, ?E2, ?E6, ?E7; auto.
      clear - IH H6. induction H6; constructor; inversion IH; subst; auto. }
    apply T. exact Sh.
  - rewrite D in Eq. unfold seen in Eq. cbn [loaded] in Eq. destruct (load up ws s_init chunks) as [s'|e']; cbn [loaded] in Eq; [discriminate |].
    injection Eq as ->. reflexivity.
Qed.
End Quiet.

(** ** The hypotheses are met *)
(** a document with comments, an inherited element and a declaration of a namespace *)
Definition ex_root : part :=
  PElem (lit "ldml") [] [PText (lit " "); PComment (lit "one"); PElem (lit "identity") [] [PElem (lit "urn://a}b") [(lit "k", lit "v")] [PText (lit "text")]];
                         PElem (lit "dates") [] [PElem (lit "calendar") [] [PText uparrow3]]; PComment (lit "two")].
Definition ex_chunks : list (list raw) :=
  [[XDefault (lit "<?xml?>"); XComment (lit "zero"); XNs (Some (lit "sil")) (Some (lit "urn://a")); XStart (lit "ldml") []];
   [XData (lit " "); XComment (lit "one"); XStart (lit "identity") []; XStart (lit "urn://a}b") [lit "k"; lit "v"]; XData (lit "te")];
   [];
   [XData (lit "xt"); XEnd (lit "urn://a}b"); XEnd (lit "identity"); XStart (lit "dates") []; XStart (lit "calendar") []; XData uparrow3; XEnd (lit "calendar")];
   [XEnd (lit "dates"); XComment (lit "two"); XEnd (lit "ldml"); XComment (lit "three")]].
Definition no_ws (c : N) : bool := false.
Example C80_met : nested [] (concat ex_chunks) = true /\ Forall no_entity (concat ex_chunks)
  /\ joined (filter visible (concat ex_chunks)) = joined (document [lit "zero"] ex_root [lit "three"])
  /\ well ex_root
  /\ read_loop false (item_tree (item_of ex_root)) [lit "zero"]
     = Ok (CNode (lit "ldml") [] (Some (lit " ")) [lit "zero"] []
             [CNode (lit "identity") [] None [lit "one"] [lit "two"]
                [CNode (lit "{urn://a}b") [(lit "k", lit "v")] (Some (lit "text")) [] [] []]]).
Proof.
  repeat split.
  - repeat (constructor; [exact I |]). constructor.
  - unfold ex_root. repeat (constructor; try (intros E; discriminate E)).
Qed.
