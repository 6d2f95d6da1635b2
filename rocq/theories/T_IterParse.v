(** C80: loading a document does not depend on how the input is cut into chunks. *)
From Coq Require Import String Lia Bool Permutation.
From Verif Require Import Py PyFacts M_TreeBuilder T_TreeBuilder M_IterParse.
Local Open Scope list_scope.
Local Open Scope nat_scope.

(** ** Lists *)
Lemma upd_nth_length : forall A (f : A -> A) l i, length (upd_nth i f l) = length l.
Proof. intros A f. induction l as [|x l IH]; intros [|i]; cbn; auto. Qed.
Lemma nth_upd_same : forall A (f : A -> A) d l i, i < length l -> nth i (upd_nth i f l) d = f (nth i l d).
Proof.
  intros A f d. induction l as [|x l IH]; intros [|i] H; cbn in *; try lia; auto. apply IH. lia.
Qed.
Lemma nth_upd_other : forall A (f : A -> A) d l i j, i <> j -> nth j (upd_nth i f l) d = nth j l d.
Proof.
  intros A f d. induction l as [|x l IH]; intros [|i] [|j] H; cbn; auto; try contradiction; try (apply IH; lia).
Qed.
Lemma upd_nth_app : forall A (f : A -> A) l m i, i < length l -> upd_nth i f (l ++ m) = upd_nth i f l ++ m.
Proof.
  intros A f. induction l as [|x l IH]; intros m [|i] H; cbn in *; try lia; auto. rewrite IH; [reflexivity | lia].
Qed.
Lemma upd_upd_same : forall A (f g : A -> A) l i, upd_nth i f (upd_nth i g l) = upd_nth i (fun x => f (g x)) l.
Proof. intros A f g. induction l as [|x l IH]; intros [|i]; cbn; auto. rewrite IH. reflexivity. Qed.
Lemma upd_upd_other : forall A (f g : A -> A) l i j, i <> j -> upd_nth i f (upd_nth j g l) = upd_nth j g (upd_nth i f l).
Proof.
  intros A f g. induction l as [|x l IH]; intros [|i] [|j] H; cbn; auto; try contradiction;
  try (rewrite IH by lia; reflexivity).
Qed.
Lemma upd_const_ext : forall A (f g : A -> A) d l i, f (nth i l d) = g (nth i l d) -> upd_nth i f l = upd_nth i g l.
Proof.
  intros A f g d. induction l as [|x l IH]; intros [|i] H; cbn in *; auto.
  - rewrite H. reflexivity.
  - rewrite (IH i H). reflexivity.
Qed.
Lemma remove1_snoc : forall i l j, i <> j ->
  remove1 i (l ++ [j]) = match remove1 i l with Some r => Some (r ++ [j]) | None => None end.
Proof.
  intros i l j H. induction l as [|x l IH]; cbn.
  - destruct (Nat.eqb_spec j i) as [->|_]; [contradiction | reflexivity].
  - destruct (Nat.eqb x i); [reflexivity |]. rewrite IH. destruct (remove1 i l); reflexivity.
Qed.
Lemma remove1_length : forall i l r, remove1 i l = Some r -> length l = S (length r).
Proof.
  intros i. induction l as [|x l IH]; intros r H; cbn in H; [discriminate |].
  destruct (Nat.eqb x i); [injection H as <-; reflexivity |].
  destruct (remove1 i l) as [r'|] eqn:E; [| discriminate]. injection H as <-. cbn. rewrite (IH r' eq_refl). reflexivity.
Qed.

(** ** What holds between steps *)
Definition fine (b : bst) (q : qev) : Prop :=
  match q with
  | QStart i => i < length (b_nodes b)
  | QEnd i => i < length (b_nodes b) /\ ~ In i (b_elem b)
  | QNs _ _ => True
  | QErr _ => False
  end.
Record Inv (b : bst) (qs : list qev) (rd : reader) : Prop := {
  i_len : length (b_kids b) = length (b_nodes b);
  i_elem : forall i, In i (b_elem b) -> i < length (b_nodes b);
  i_nodup : NoDup (b_elem b);
  i_queue : forall q, In q qs -> fine b q;
  i_curr : forall c, r_curr rd = Some c -> c < length (b_nodes b);
  i_parent : forall k v, In (k, v) (r_parent rd) -> v < length (b_nodes b);
  i_last : forall l, b_last b = Some l -> l < length (b_nodes b);
  i_open : forall l, b_last b = Some l -> b_tail b = false -> In l (b_elem b)
}.

(** how an operation of the builder changes the children *)
Inductive growth (b : bst) : (list (list nat) -> list (list nat)) -> Prop :=
| G_none : growth b (fun k => k)
| G_root : b_elem b = [] -> growth b (fun k => k ++ [[]])
| G_kid p es : b_elem b = p :: es -> growth b (fun k => upd_nth p (fun l => l ++ [length (b_nodes b)]) k ++ [[]]).

Record extends (b b' : bst) : Prop := {
  e_len : length (b_nodes b) <= length (b_nodes b');
  e_tag : forall i, i < length (b_nodes b) -> n_tag (b_node b' i) = n_tag (b_node b i);
  e_attrs : forall i, i < length (b_nodes b) -> n_attrs (b_node b' i) = n_attrs (b_node b i);
  e_text : forall i, i < length (b_nodes b) -> ~ In i (b_elem b) -> n_text (b_node b' i) = n_text (b_node b i)
}.

Lemma flush_facts : forall b b1, b_flush b = Ok b1 ->
  b_kids b1 = b_kids b /\ b_elem b1 = b_elem b /\ b_last b1 = b_last b /\ b_tail b1 = b_tail b
  /\ b_data b1 = [] /\ length (b_nodes b1) = length (b_nodes b)
  /\ (forall i, n_tag (b_node b1 i) = n_tag (b_node b i) /\ n_attrs (b_node b1 i) = n_attrs (b_node b i))
  /\ (forall i, (b_tail b = true \/ b_last b <> Some i) -> n_text (b_node b1 i) = n_text (b_node b i))
  /\ (forall k, b_flush (with_kids b k) = Ok (with_kids b1 k)).
Proof.
  intros b b1 H. unfold b_flush in *. cbn [with_kids b_nodes b_kids b_data b_elem b_last b_tail].
  destruct (b_data b) as [|d ds] eqn:D.
  { injection H as <-. repeat split; auto. }
  destruct (b_last b) as [l|] eqn:L.
  2:{ injection H as <-. cbn. repeat split; auto. }
  assert (Hn : forall (g : node -> node) i,
             (forall n, n_tag (g n) = n_tag n /\ n_attrs (g n) = n_attrs n) ->
             n_tag (nth i (upd_nth l g (b_nodes b)) dummy) = n_tag (b_node b i)
             /\ n_attrs (nth i (upd_nth l g (b_nodes b)) dummy) = n_attrs (b_node b i)).
  { intros g i Hg. destruct (Nat.eq_dec l i) as [->|Hne].
    - destruct (Nat.lt_ge_cases i (length (b_nodes b))) as [Hi|Hi].
      + rewrite nth_upd_same by assumption. apply Hg.
      + rewrite !nth_overflow by (try rewrite upd_nth_length; assumption).
        unfold b_node. rewrite nth_overflow by assumption. split; reflexivity.
    - rewrite nth_upd_other by assumption. split; reflexivity. }
  change (b_node (with_kids b ?k) l) with (b_node b l).
  destruct (b_tail b) eqn:T.
  - destruct (n_tail (b_node b l)) eqn:Tl; [discriminate |]. injection H as <-. cbn [b_kids b_elem b_last b_tail b_data b_nodes].
    repeat split; auto.
    + apply upd_nth_length.
    + apply Hn. intros n. split; reflexivity.
    + apply Hn. intros n. split; reflexivity.
    + intros i _. unfold b_node. cbn [b_nodes]. destruct (Nat.eq_dec l i) as [->|Hne].
      * destruct (Nat.lt_ge_cases i (length (b_nodes b))) as [Hi|Hi].
        { rewrite nth_upd_same by assumption. reflexivity. }
        { rewrite !nth_overflow by (try rewrite upd_nth_length; assumption). reflexivity. }
      * rewrite nth_upd_other by assumption. reflexivity.
  - destruct (n_text (b_node b l)) eqn:Tl; [discriminate |]. injection H as <-. cbn [b_kids b_elem b_last b_tail b_data b_nodes].
    repeat split; auto.
    + apply upd_nth_length.
    + apply Hn. intros n. split; reflexivity.
    + apply Hn. intros n. split; reflexivity.
    + intros i [F|Hne]; [discriminate |]. unfold b_node. cbn [b_nodes].
      rewrite nth_upd_other by (intro; subst; apply Hne; reflexivity). reflexivity.
Qed.

Lemma op_facts : forall b qs rd o b' out, Inv b qs rd -> b_op b o = Ok (b', out) ->
  Inv b' (qs ++ out) rd /\ extends b b'
  /\ exists G, growth b G /\ b_kids b' = G (b_kids b)
       /\ (forall k, b_op (with_kids b k) o = Ok (with_kids b' (G k), out)).
Proof.
  intros b qs rd o b' out I H.
  destruct o as [tag attrs|tag|s|p u]; cbn [b_op] in H.
  - destruct (b_flush b) as [b1|e] eqn:F; cbn [bind] in H; [| discriminate].
    destruct (flush_facts b b1 F) as (Fk & Fe & Fl & Ft & Fd & Fn & Ftag & Ftx & Fw).
    rewrite Fk, Fe, Fd, Fn in H. injection H as <- <-.
    assert (X : extends b (mkB (b_nodes b1 ++ [mkN tag attrs None None])
                (match b_elem b with [] => b_kids b | p :: _ => upd_nth p (fun l => l ++ [length (b_nodes b)]) (b_kids b) end ++ [[]])
                [] (length (b_nodes b) :: b_elem b) (Some (length (b_nodes b))) false)).
    { split; unfold b_node; cbn [b_nodes].
      - rewrite app_length, Fn. cbn. lia.
      - intros i Hi. rewrite app_nth1 by (rewrite Fn; exact Hi). apply Ftag.
      - intros i Hi. rewrite app_nth1 by (rewrite Fn; exact Hi). apply Ftag.
      - intros i Hi Hin. rewrite app_nth1 by (rewrite Fn; exact Hi). apply Ftx.
        destruct (b_tail b) eqn:T; [left; reflexivity | right]. intros L. apply Hin. exact (i_open _ _ _ I i L T). }
    split; [| split; [exact X |]].
    + destruct I as [I1 I2 I3 I4 I5 I6 I7 I8]. split; cbn [b_nodes b_kids b_elem b_last b_tail b_data] in *.
      * rewrite !app_length, Fn. cbn. destruct (b_elem b); [| rewrite upd_nth_length]; rewrite I1; reflexivity.
      * intros i [<-|Hi]; rewrite app_length, Fn; cbn; [lia |]. specialize (I2 i Hi). lia.
      * constructor; [intros Hin; specialize (I2 _ Hin); lia | exact I3].
      * intros q Hq. apply in_app_or in Hq. destruct Hq as [Hq|[<-|[]]].
        -- specialize (I4 q Hq). destruct q as [i|i|? ?|?]; cbn [fine b_nodes b_elem] in *; auto; rewrite app_length, Fn; cbn.
           ++ lia.
           ++ destruct I4 as (Hi & Hn). split; [lia |]. intros [E|Hin]; [lia | exact (Hn Hin)].
        -- cbn. rewrite app_length, Fn. cbn. lia.
      * intros c Hc. rewrite app_length, Fn. cbn. specialize (I5 c Hc). lia.
      * intros k v Hk. rewrite app_length, Fn. cbn. specialize (I6 k v Hk). lia.
      * intros l E. injection E as <-. rewrite app_length, Fn. cbn. lia.
      * intros l E _. injection E as <-. left. reflexivity.
    + destruct (b_elem b) as [|p es] eqn:E.
      * exists (fun k => k ++ [[]]). split; [apply G_root; exact E |]. split; [reflexivity |].
        intros k. cbn [b_op]. rewrite Fw. cbn [bind]. unfold with_kids. cbn [b_nodes b_kids b_elem b_last b_tail b_data].
        rewrite Fe, Fd, Fn. reflexivity.
      * exists (fun k => upd_nth p (fun l => l ++ [length (b_nodes b)]) k ++ [[]]).
        split; [apply (G_kid b p es); exact E |]. split; [reflexivity |].
        intros k. cbn [b_op]. rewrite Fw. cbn [bind]. unfold with_kids. cbn [b_nodes b_kids b_elem b_last b_tail b_data].
        rewrite Fe, Fd, Fn. reflexivity.
  - destruct (b_flush b) as [b1|e] eqn:F; cbn [bind] in H; [| discriminate].
    destruct (flush_facts b b1 F) as (Fk & Fe & Fl & Ft & Fd & Fn & Ftag & Ftx & Fw).
    rewrite Fe in H. destruct (b_elem b) as [|i es] eqn:E; [discriminate |].
    destruct (streq (n_tag (b_node b1 i)) tag) eqn:Tg; [| discriminate]. injection H as <- <-.
    split; [| split].
    + destruct I as [I1 I2 I3 I4 I5 I6 I7 I8]. rewrite E in *.
      split; cbn [b_nodes b_kids b_elem b_last b_tail b_data] in *; rewrite ?Fn, ?Fk; auto.
      * intros i' Hi'. apply I2. right. exact Hi'.
      * inversion I3; assumption.
      * intros q Hq. apply in_app_or in Hq. destruct Hq as [Hq|[<-|[]]].
        -- specialize (I4 q Hq). destruct q as [j|j|? ?|?]; cbn [fine b_nodes b_elem] in *; auto; rewrite Fn; auto.
           rewrite E in I4. destruct I4 as (Hj & Hn). split; [exact Hj |]. intros Hin. apply Hn. right. exact Hin.
        -- cbn. rewrite Fn. split; [apply I2; left; reflexivity |]. inversion I3; assumption.
      * intros l Hl. injection Hl as <-. apply I2. left. reflexivity.
      * intros l _ Ff. discriminate Ff.
    + split; unfold b_node in *; cbn [b_nodes].
      * rewrite Fn. lia.
      * intros j _. apply Ftag.
      * intros j _. apply Ftag.
      * intros j Hj Hin. apply Ftx. destruct (b_tail b) eqn:T; [left; reflexivity | right].
        intros L. apply Hin. exact (i_open _ _ _ I j L T).
    + exists (fun k => k). split; [apply G_none |]. split; [cbn; exact Fk |].
      intros k. cbn [b_op]. rewrite Fw. cbn [bind]. unfold with_kids at 1. cbn [b_elem]. rewrite Fe.
      change (b_node (with_kids b1 k) i) with (b_node b1 i). rewrite Tg. reflexivity.
  - injection H as <- <-. rewrite app_nil_r. split; [| split].
    + destruct I as [I1 I2 I3 I4 I5 I6 I7 I8]. split; cbn; auto.
    + split; unfold b_node; cbn; auto.
    + exists (fun k => k). split; [apply G_none |]. split; reflexivity.
  - injection H as <- <-. split; [| split].
    + destruct I as [I1 I2 I3 I4 I5 I6 I7 I8]. split; auto.
      intros q Hq. apply in_app_or in Hq. destruct Hq as [Hq|[<-|[]]]; [exact (I4 q Hq) | exact I].
    + split; auto.
    + exists (fun k => k). split; [apply G_none |]. split; reflexivity.
Qed.

Section Loop.
Variable uparrows : bool.

Lemma growth_length : forall b G k, growth b G -> length k <= length (G k).
Proof.
  intros b G k HG. destruct HG as [|H|p es H]; [lia | |]; rewrite app_length; [lia |]. rewrite upd_nth_length. lia.
Qed.
(** the children of a finished element do not grow *)
Lemma growth_closed : forall b G k i, growth b G -> i < length k -> ~ In i (b_elem b) -> nth i (G k) [] = nth i k [].
Proof.
  intros b G k i HG Hi Hn. destruct HG as [|H|p es H]; [reflexivity | |].
  - rewrite app_nth1 by exact Hi. reflexivity.
  - rewrite app_nth1 by (rewrite upd_nth_length; exact Hi). apply nth_upd_other.
    intros ->. apply Hn. rewrite H. left. reflexivity.
Qed.
(** taking a child out and adding one can be done in either order *)
Lemma growth_take_out : forall b G k c x, growth b G -> length k = length (b_nodes b) -> x < length k ->
  (forall c', c = Some c' -> c' < length k) ->
  take_out (G k) c x = match take_out k c x with Ok k' => Ok (G k') | Raise e => Raise e end.
Proof.
  intros b G k c x HG Hl Hx Hc. unfold take_out. destruct c as [c|]; [| reflexivity]. specialize (Hc c eq_refl).
  destruct HG as [|H|p es H].
  - destruct (remove1 x (nth c k [])); reflexivity.
  - rewrite app_nth1 by exact Hc. destruct (remove1 x (nth c k [])) as [r|]; [| reflexivity].
    rewrite upd_nth_app by exact Hc. reflexivity.
  - rewrite app_nth1 by (rewrite upd_nth_length; exact Hc).
    destruct (Nat.eq_dec p c) as [->|Hne].
    + rewrite nth_upd_same by exact Hc. rewrite remove1_snoc by lia.
      destruct (remove1 x (nth c k [])) as [r|] eqn:R; [| reflexivity].
      rewrite upd_nth_app by (rewrite upd_nth_length; exact Hc). rewrite !upd_upd_same. reflexivity.
    + rewrite nth_upd_other by exact Hne. destruct (remove1 x (nth c k [])) as [r|]; [| reflexivity].
      rewrite upd_nth_app by (rewrite upd_nth_length; exact Hc). rewrite upd_upd_other by lia. reflexivity.
Qed.
Lemma take_out_length : forall k c x k', take_out k c x = Ok k' -> length k' = length k.
Proof.
  intros k c x k' H. unfold take_out in H. destruct c as [c|]; [| discriminate].
  destruct (remove1 x (nth c k [])); [| discriminate]. injection H as <-. apply upd_nth_length.
Qed.

Lemma step_comm : forall b b' qs rd q G, Inv b qs rd -> In q qs -> extends b b' -> growth b G -> b_kids b' = G (b_kids b) ->
  r_step uparrows (b_nodes b') (G (b_kids b)) rd q
  = match r_step uparrows (b_nodes b) (b_kids b) rd q with Ok (k, rd') => Ok (G k, rd') | Raise e => Raise e end.
Proof.
  intros b b' qs rd q G I Hq X HG HK. pose proof (i_queue _ _ _ I q Hq) as Fq.
  destruct X as [Xl Xt Xa Xx]. unfold b_node in *.
  assert (Hc : forall c', r_curr rd = Some c' -> c' < length (b_kids b)).
  { intros c' E. rewrite (i_len _ _ _ I). exact (i_curr _ _ _ I c' E). }
  destruct q as [i|i|p u|e]; cbn [fine r_step] in *; try reflexivity.
  - rewrite (Xt i Fq), (Xa i Fq).
    destruct (streq (n_tag (nth i (b_nodes b) dummy)) comment_tag); [reflexivity |].
    destruct (r_curr rd); reflexivity.
  - destruct Fq as (Fi & Fe). rewrite (Xt i Fi), (Xx i Fi Fe).
    destruct (streq (n_tag (nth i (b_nodes b) dummy)) comment_tag).
    + destruct (r_curr rd) as [c|] eqn:C; [| reflexivity].
      rewrite (growth_take_out b) by (try assumption; try exact (i_len _ _ _ I); rewrite (i_len _ _ _ I); exact Fi).
      destruct (take_out (b_kids b) (Some c) i); reflexivity.
    + rewrite (growth_closed b G (b_kids b) i HG) by (try assumption; rewrite (i_len _ _ _ I); exact Fi).
      destruct (match r_comments rd with
                | [] => (r_after rd, [])
                | c :: cs => match rev (nth i (b_kids b) []) with [] => (r_after rd, c :: cs) | k :: _ => (dset Nat.eqb (r_after rd) k (c :: cs), []) end
                end) as [after comments] eqn:AC.
      assert (AC' : forall (A : Type) (F : _ -> _ -> A),
         (let '(after0, comments0) :=
          match r_comments rd with
          | [] => (r_after rd, [])
          | c :: cs => match rev (nth i (b_kids b) []) with [] => (r_after rd, c :: cs) | k :: _ => (dset Nat.eqb (r_after rd) k (c :: cs), []) end
          end in F after0 comments0) = F after comments).
      { intros A F. rewrite AC. reflexivity. }
      assert (Hp : forall c', dget Nat.eqb (r_parent rd) i = Some c' -> c' < length (b_kids b)).
      { intros c' E. rewrite (i_len _ _ _ I). refine (i_parent _ _ _ I i c' _). apply (dget_In Nat.eqb); [| exact E].
        intros x y. apply Nat.eqb_spec. }
      destruct (r_comments rd) as [|c0 cs0]; destruct (rev (nth i (b_kids b) [])) as [|k0 ks0]; injection AC as <- <-;
        (destruct uparrows; [reflexivity |];
         destruct (_ || _)%bool;
         [ rewrite (growth_take_out b) by (try assumption; try exact (i_len _ _ _ I); rewrite (i_len _ _ _ I); exact Fi);
           destruct (take_out (b_kids b) (dget Nat.eqb (r_parent rd) i) i); [| reflexivity];
           cbn [bind]; destruct (dget Nat.eqb (r_parent rd) i); reflexivity
         | destruct (dget Nat.eqb (r_parent rd) i); reflexivity ]).
Qed.

Lemma with_kids_inv : forall b qs rd k, Inv b qs rd -> length k = length (b_kids b) -> Inv (with_kids b k) qs rd.
Proof. intros b qs rd k [I1 I2 I3 I4 I5 I6 I7 I8] H. split; cbn; auto. congruence. Qed.
Lemma Inv_queue : forall b qs qs' rd, Inv b qs rd -> (forall q, In q qs' -> In q qs) -> Inv b qs' rd.
Proof. intros b qs qs' rd [I1 I2 I3 I4 I5 I6 I7 I8] H. split; auto. Qed.

Lemma dset_snd : forall (d : list (nat * nat)) k v x y, In (x, y) (dset Nat.eqb d k v) -> y = v \/ In (x, y) d.
Proof.
  induction d as [|[k' v'] d IH]; intros k v x y H; cbn in H.
  - destruct H as [E|[]]. injection E as <- <-. left. reflexivity.
  - destruct (Nat.eqb k k').
    + destruct H as [E|H]; [injection E as <- <-; left; reflexivity | right; right; exact H].
    + destruct H as [E|H]; [right; left; exact E |]. destruct (IH _ _ _ _ H) as [|]; [left; assumption | right; right; assumption].
Qed.

Lemma step_inv : forall b q qs rd k rd', Inv b (q :: qs) rd ->
  r_step uparrows (b_nodes b) (b_kids b) rd q = Ok (k, rd') -> Inv (with_kids b k) qs rd'.
Proof.
  intros b q qs rd k rd' I H.
  assert (Fq : fine b q) by (apply (i_queue _ _ _ I); left; reflexivity).
  assert (Hp : forall i c', dget Nat.eqb (r_parent rd) i = Some c' -> c' < length (b_nodes b)).
  { intros i c' E. refine (i_parent _ _ _ I i c' _). apply (dget_In Nat.eqb); [| exact E].
    intros x y. apply Nat.eqb_spec. }
  assert (K : length k = length (b_kids b)
              /\ (forall c, r_curr rd' = Some c -> c < length (b_nodes b))
              /\ (forall x y, In (x, y) (r_parent rd') -> y < length (b_nodes b))).
  { pose proof (i_curr _ _ _ I) as Ic. pose proof (i_parent _ _ _ I) as Ip.
    destruct q as [i|i|p u|e]; cbn [r_step fine] in *; [| | | discriminate].
    - destruct (streq _ comment_tag); [injection H as <- <-; cbn; auto |].
      destruct (r_curr rd) as [c|] eqn:C; injection H as <- <-; cbn; (split; [reflexivity |]; split; [intros c' E; injection E as <-; exact Fq |]).
      + intros x y Hin. apply dset_snd in Hin. destruct Hin as [->|Hin]; [exact (Ic c eq_refl) | exact (Ip x y Hin)].
      + exact Ip.
    - destruct Fq as (Fi & Fe). destruct (streq _ comment_tag).
      + destruct (r_curr rd) as [c|] eqn:C; [| injection H as <- <-; auto].
        2:{ split; [reflexivity |]. split; [rewrite C; intros ? E; discriminate E | exact Ip]. }
        destruct (take_out (b_kids b) (Some c) i) as [k1|] eqn:T; cbn [bind] in H; [| discriminate].
        injection H as <- <-. split; [exact (take_out_length _ _ _ _ T) |]. rewrite C. split; [exact Ic | exact Ip].
      + destruct (match r_comments rd with
                | [] => (r_after rd, [])
                | c :: cs => match rev (nth i (b_kids b) []) with [] => (r_after rd, c :: cs) | k0 :: _ => (dset Nat.eqb (r_after rd) k0 (c :: cs), []) end
                end) as [after comments] eqn:AC.
        destruct (r_comments rd) as [|c0 cs0]; destruct (rev (nth i (b_kids b) [])) as [|k0 ks0]; injection AC as <- <-;
          (destruct uparrows; [injection H as <- <-; cbn; split; [reflexivity | split; [exact (Hp i) | exact Ip]] |];
           destruct (_ || _)%bool;
           [ destruct (take_out (b_kids b) (dget Nat.eqb (r_parent rd) i) i) as [k1|] eqn:T; cbn [bind] in H; [| discriminate];
             destruct (dget Nat.eqb (r_parent rd) i) as [c|] eqn:D; [| discriminate]; injection H as <- <-; cbn;
             split; [exact (take_out_length _ _ _ _ T) |]; rewrite <- D; split; [exact (Hp i) | exact Ip]
           | destruct (dget Nat.eqb (r_parent rd) i) as [c|] eqn:D; injection H as <- <-; cbn;
             (split; [reflexivity |]); rewrite <- D; split; [exact (Hp i) | exact Ip | exact (Hp i) | exact Ip] ]).
    - injection H as <- <-. cbn. auto. }
  destruct K as (K1 & K2 & K3). destruct I as [I1 I2 I3 I4 I5 I6 I7 I8].
  split; cbn; auto; [congruence |]. intros q' Hq'. apply (I4 q'). right. exact Hq'.
Qed.

Lemma run_inv : forall qs qs' b rd b1 rd1, Inv b (qs ++ qs') rd -> r_run uparrows b rd qs = Ok (b1, rd1) -> Inv b1 qs' rd1.
Proof.
  induction qs as [|q qs IH]; intros qs' b rd b1 rd1 I H; cbn [r_run] in H.
  - injection H as <- <-. exact I.
  - destruct (r_step uparrows (b_nodes b) (b_kids b) rd q) as [[k rd']|e] eqn:E; cbn [bind] in H; [| discriminate].
    exact (IH qs' _ _ _ _ (step_inv b q (qs ++ qs') rd k rd' I E) H).
Qed.
Lemma run_app : forall qs qs' b rd,
  r_run uparrows b rd (qs ++ qs') = do (b1, rd1) <- r_run uparrows b rd qs; r_run uparrows b1 rd1 qs'.
Proof.
  induction qs as [|q qs IH]; intros qs' b rd; cbn [app r_run]; [reflexivity |].
  destruct (r_step uparrows (b_nodes b) (b_kids b) rd q) as [[k rd']|e]; cbn [bind]; [apply IH | reflexivity].
Qed.

Lemma with_kids_same : forall b k, b_kids b = k -> b = with_kids b k.
Proof. intros [n k' d e l t] k H. cbn in *. subst. reflexivity. Qed.

(** an operation of the builder can be put before or after the events that are queued *)
Lemma op_run : forall o out qs b b' rd, Inv b qs rd -> b_op b o = Ok (b', out) ->
  match r_run uparrows b rd qs with
  | Ok (b1, rd1) => exists b1', b_op b1 o = Ok (b1', out) /\ r_run uparrows b' rd qs = Ok (b1', rd1)
  | Raise e => r_run uparrows b' rd qs = Raise e
  end.
Proof.
  intros o out. induction qs as [|q qs IH]; intros b b' rd I H; cbn [r_run].
  - exists b'. split; [exact H | reflexivity].
  - destruct (op_facts b (q :: qs) rd o b' out I H) as (_ & X & G & HG & HK & Hop).
    pose proof (step_comm b b' (q :: qs) rd q G I (or_introl eq_refl) X HG HK) as C. rewrite <- HK in C. rewrite C.
    destruct (r_step uparrows (b_nodes b) (b_kids b) rd q) as [[k rd']|e] eqn:E; cbn [bind]; [| reflexivity].
    exact (IH _ _ _ (step_inv b q qs rd k rd' I E) (Hop k)).
Qed.
Lemma ops_run : forall os out qs b b' rd, Inv b qs rd -> b_ops b os = Ok (b', out) ->
  Inv b' (qs ++ out) rd /\
  match r_run uparrows b rd qs with
  | Ok (b1, rd1) => exists b1', b_ops b1 os = Ok (b1', out) /\ r_run uparrows b' rd qs = Ok (b1', rd1)
  | Raise e => r_run uparrows b' rd qs = Raise e
  end.
Proof.
  induction os as [|o os IH]; intros out qs b b' rd I H; cbn [b_ops] in H.
  - injection H as <- <-. rewrite app_nil_r. split; [exact I |].
    destruct (r_run uparrows b rd qs) as [[b1 rd1]|e]; [| reflexivity]. exists b1. split; reflexivity.
  - destruct (b_op b o) as [[b2 q1]|e] eqn:E; cbn [bind] in H; [| discriminate].
    destruct (b_ops b2 os) as [[b3 q2]|e] eqn:E2; cbn [bind] in H; [| discriminate]. injection H as <- <-.
    destruct (op_facts b qs rd o b2 q1 I E) as (I2 & _).
    pose proof (op_run o q1 qs b b2 rd I E) as R.
    destruct (IH q2 (qs ++ q1) b2 b3 rd I2 E2) as (I3 & _). rewrite <- app_assoc in I3. split; [exact I3 |].
    assert (I2' : Inv b2 qs rd) by (apply (Inv_queue _ _ _ _ I2); intros q Hq; apply in_or_app; left; exact Hq).
    destruct (IH q2 qs b2 b3 rd I2' E2) as (_ & R2).
    destruct (r_run uparrows b rd qs) as [[b1 rd1]|e].
    + destruct R as (b1' & Ra & Rb). rewrite Rb in R2. destruct R2 as (b1'' & Rc & Rd).
      exists b1''. split; [| exact Rd]. cbn [b_ops]. rewrite Ra. cbn [bind]. rewrite Rc. reflexivity.
    + rewrite R in R2. exact R2.
Qed.

Variable ws : N -> bool.

(** feeding neither looks at the queue nor at the loop *)
Definition fed (b : bst) (dt : option (list pystr)) (xs : list raw) : res state := feed ws (mkS b dt [] r_init) xs.
Lemma feed_frame : forall xs b dt q rd,
  feed ws (mkS b dt q rd) xs
  = match fed b dt xs with Ok s => Ok (mkS (s_b s) (s_dt s) (q ++ s_queue s) rd) | Raise e => Raise e end.
Proof.
  unfold fed. induction xs as [|x xs IH]; intros b dt q rd; cbn [feed s_dt s_b s_queue s_r].
  - rewrite app_nil_r. reflexivity.
  - destruct (handle ws dt x) as [[os dt']|e].
    + destruct (b_ops b os) as [[b' q']|e]; cbn [bind]; [| reflexivity].
      rewrite IH. rewrite (IH b' dt' ([] ++ q') r_init). destruct (feed ws (mkS b' dt' [] r_init) xs); [| reflexivity].
      cbn. rewrite <- app_assoc. reflexivity.
    + destruct e; reflexivity.
Qed.
Lemma fed_cons : forall x xs b dt,
  fed b dt (x :: xs)
  = match handle ws dt x with
    | Raise SyntaxErr => Ok (mkS b dt [QErr SyntaxErr] r_init)
    | Raise e => Raise e
    | Ok (os, dt') =>
        do (b', q) <- b_ops b os;
        match fed b' dt' xs with Ok s => Ok (mkS (s_b s) (s_dt s) (q ++ s_queue s) r_init) | Raise e => Raise e end
    end.
Proof.
  intros x xs b dt. unfold fed at 1. cbn [feed s_dt s_b s_queue s_r].
  destruct (handle ws dt x) as [[os dt']|e]; [| destruct e; reflexivity].
  destruct (b_ops b os) as [[b' q']|e]; cbn [bind]; [| reflexivity]. rewrite feed_frame. reflexivity.
Qed.

(** the same for a whole chunk *)
Lemma fed_run : forall xs qs b dt rd s, Inv b qs rd -> fed b dt xs = Ok s ->
  match r_run uparrows b rd qs with
  | Ok (b1, rd1) => exists b1', fed b1 dt xs = Ok (mkS b1' (s_dt s) (s_queue s) r_init)
                                /\ r_run uparrows (s_b s) rd qs = Ok (b1', rd1)
  | Raise e => r_run uparrows (s_b s) rd qs = Raise e
  end.
Proof.
  induction xs as [|x xs IH]; intros qs b dt rd s I H.
  - unfold fed in H. cbn in H. injection H as <-. cbn.
    destruct (r_run uparrows b rd qs) as [[b1 rd1]|e]; [| reflexivity]. exists b1. split; reflexivity.
  - rewrite fed_cons in H. destruct (handle ws dt x) as [[os dt']|e] eqn:Hd.
    + destruct (b_ops b os) as [[b' q']|e] eqn:E; cbn [bind] in H; [| discriminate].
      destruct (fed b' dt' xs) as [s'|e] eqn:F; [| discriminate]. injection H as <-. cbn [s_b s_dt s_queue].
      destruct (ops_run os q' qs b b' rd I E) as (I' & R).
      assert (I2 : Inv b' qs rd) by (apply (Inv_queue _ _ _ _ I'); intros q Hq; apply in_or_app; left; exact Hq).
      specialize (IH qs b' dt' rd s' I2 F).
      destruct (r_run uparrows b rd qs) as [[b1 rd1]|e].
      * destruct R as (b1' & Ra & Rb). rewrite Rb in IH. destruct IH as (b1'' & Rc & Rd).
        exists b1''. split; [| exact Rd]. rewrite fed_cons, Hd, Ra. cbn [bind]. rewrite Rc. reflexivity.
      * rewrite R in IH. exact IH.
    + destruct e; try discriminate. injection H as <-. cbn [s_b s_dt s_queue].
      destruct (r_run uparrows b rd qs) as [[b1 rd1]|e]; [| reflexivity].
      exists b1. split; [| reflexivity]. rewrite fed_cons, Hd. reflexivity.
Qed.

(** ** Everything fed, then everything read *)
Definition run (s : state) (xs : list raw) : res state := do s1 <- feed ws s xs; read_events uparrows s1.
Definition SInv (s : state) : Prop := Inv (s_b s) (s_queue s) (s_r s).

Lemma read_sinv : forall s s', SInv s -> read_events uparrows s = Ok s' -> SInv s'.
Proof.
  intros s s' I H. unfold read_events in H.
  destruct (r_run uparrows (s_b s) (s_r s) (s_queue s)) as [[b rd]|e] eqn:E; cbn [bind] in H; [| discriminate].
  injection H as <-. unfold SInv in *. cbn. apply (run_inv (s_queue s) [] (s_b s) (s_r s)); [| exact E].
  rewrite app_nil_r. exact I.
Qed.

Lemma run_later : forall s d, SInv s -> (exists x, fed (s_b s) (s_dt s) d = Ok x) ->
  run s d = do s2 <- read_events uparrows s; run s2 d.
Proof.
  intros [b dt qs rd] d I (x & F). unfold run, SInv in *. cbn [s_b s_dt s_queue s_r] in *.
  rewrite feed_frame, F. cbn [bind].
  pose proof (fed_run d qs b dt rd x I F) as R. unfold read_events. cbn [s_b s_dt s_queue s_r].
  rewrite run_app. destruct (r_run uparrows b rd qs) as [[b1 rd1]|e] eqn:E.
  - destruct R as (b1' & Ra & Rb). rewrite Rb. cbn [bind]. rewrite feed_frame, Ra. cbn. reflexivity.
  - rewrite R. reflexivity.
Qed.

Lemma run_split : forall c d s, SInv s -> (exists x, fed (s_b s) (s_dt s) (c ++ d) = Ok x) ->
  run s (c ++ d) = do s1 <- feed ws s c; do s2 <- read_events uparrows s1; run s2 d.
Proof.
  induction c as [|x c IH]; intros d s I B.
  - cbn [app feed bind]. apply run_later; assumption.
  - destruct s as [b dt qs rd]. unfold SInv in I. cbn [s_b s_dt s_queue s_r] in *.
    destruct B as (y & B). cbn [app] in B. rewrite fed_cons in B.
    unfold run. cbn [app feed s_dt s_b s_queue s_r].
    destruct (handle ws dt x) as [[os dt']|e] eqn:Hd.
    + destruct (b_ops b os) as [[b' q']|e] eqn:E; cbn [bind] in *; [| discriminate].
      destruct (ops_run os q' qs b b' rd I E) as (I' & _).
      change (do s1 <- feed ws (mkS b' dt' (qs ++ q') rd) (c ++ d); read_events uparrows s1)
        with (run (mkS b' dt' (qs ++ q') rd) (c ++ d)).
      apply IH; [exact I' |]. cbn [s_b s_dt]. destruct (fed b' dt' (c ++ d)) as [s'|e]; [| discriminate]. exists s'. reflexivity.
    + destruct e; try discriminate. cbn [bind]. unfold read_events. cbn [s_b s_r s_queue]. rewrite run_app.
      destruct (r_run uparrows b rd qs) as [[b1 rd1]|e]; reflexivity.
Qed.

(** the first chunk can always be fed *)
Lemma fed_app_inv : forall c d b dt s, fed b dt (c ++ d) = Ok s -> exists s1, fed b dt c = Ok s1
  /\ ((exists q, s_queue s1 = q ++ [QErr SyntaxErr]) \/ exists s2, fed (s_b s1) (s_dt s1) d = Ok s2).
Proof.
  induction c as [|x c IH]; intros d b dt s H.
  - eexists. split; [reflexivity |]. right. exists s. exact H.
  - cbn [app] in H. rewrite fed_cons in *. destruct (handle ws dt x) as [[os dt']|e].
    + destruct (b_ops b os) as [[b' q']|e]; cbn [bind] in *; [| discriminate].
      destruct (fed b' dt' (c ++ d)) as [s'|e] eqn:F; [| discriminate].
      destruct (IH d b' dt' s' F) as (s1 & F1 & O). rewrite F1. eexists. split; [reflexivity |]. cbn [s_b s_dt s_queue].
      destruct O as [(q & E)|O]; [left | right; exact O]. exists (q' ++ q). rewrite E. apply app_assoc.
    + destruct e; try discriminate. eexists. split; [reflexivity |]. left. exists []. reflexivity.
Qed.

Lemma run_no_err : forall qs b rd x, r_run uparrows b rd qs = Ok x -> forall e, ~ In (QErr e) qs.
Proof.
  induction qs as [|q qs IH]; intros b rd x H e Hin; [exact Hin |]. cbn [r_run] in H.
  destruct Hin as [->|Hin]; [discriminate H |].
  destruct (r_step uparrows (b_nodes b) (b_kids b) rd q) as [[k rd']|e']; cbn [bind] in H; [| discriminate].
  exact (IH _ _ _ H e Hin).
Qed.
Lemma fed_inv : forall c b dt qs rd s1, Inv b qs rd -> fed b dt c = Ok s1 -> ~ In (QErr SyntaxErr) (s_queue s1) ->
  Inv (s_b s1) (qs ++ s_queue s1) rd.
Proof.
  induction c as [|x c IH]; intros b dt qs rd s1 I F Hn.
  - unfold fed in F. cbn in F. injection F as <-. cbn. rewrite app_nil_r. exact I.
  - rewrite fed_cons in F. destruct (handle ws dt x) as [[os dt']|e].
    + destruct (b_ops b os) as [[b' q']|e] eqn:E; cbn [bind] in F; [| discriminate].
      destruct (fed b' dt' c) as [s'|e] eqn:F'; [| discriminate]. injection F as <-. cbn [s_b s_queue] in *.
      rewrite app_assoc. apply (IH b' dt' (qs ++ q') rd s').
      * exact (proj1 (ops_run os q' qs b b' rd I E)).
      * exact F'.
      * intros Hin. apply Hn. apply in_or_app. right. exact Hin.
    + destruct e; try discriminate. injection F as <-. exfalso. apply Hn. left. reflexivity.
Qed.

Definition fin (r : res state) : res state := do s1 <- r; do s2 <- close s1; read_events uparrows s2.

Lemma load_run : forall cs c s, SInv s -> (exists x, fed (s_b s) (s_dt s) (c ++ concat cs) = Ok x) ->
  (do s2 <- feed ws s c; load uparrows ws s2 cs) = fin (run s (c ++ concat cs)).
Proof.
  induction cs as [|d ds IH]; intros c s I B.
  - cbn [concat] in *. rewrite app_nil_r in *. unfold run, fin. cbn [load].
    destruct (feed ws s c) as [s2|e]; cbn [bind]; reflexivity.
  - cbn [concat load] in *. rewrite run_split by assumption. destruct B as (x & B).
    destruct (fed_app_inv c (d ++ concat ds) _ _ x B) as (s1 & F1 & O).
    destruct s as [b dt qs rd]. cbn [s_b s_dt] in *. unfold SInv in I. cbn [s_b s_queue s_r] in I.
    rewrite feed_frame, F1. cbn [bind].
    destruct (r_run uparrows (s_b s1) rd (qs ++ s_queue s1)) as [[b2 rd2]|e] eqn:R.
    2:{ unfold read_events. cbn [s_b s_r s_queue]. rewrite R. reflexivity. }
    pose proof (run_no_err _ _ _ _ R SyntaxErr) as Hn.
    destruct O as [(q & Eq)|(y & F2)].
    { exfalso. apply Hn. rewrite Eq. apply in_or_app. right. apply in_or_app. right. left. reflexivity. }
    assert (I1 : Inv (s_b s1) (qs ++ s_queue s1) rd).
    { apply (fed_inv c b dt qs rd s1 I F1). intros Hin. apply Hn. apply in_or_app. right. exact Hin. }
    pose proof (fed_run (d ++ concat ds) _ _ (s_dt s1) rd y I1 F2) as FR. rewrite R in FR. destruct FR as (b3 & F3 & _).
    assert (RE : read_events uparrows (mkS (s_b s1) (s_dt s1) (qs ++ s_queue s1) rd) = Ok (mkS b2 (s_dt s1) [] rd2)).
    { unfold read_events. cbn [s_b s_r s_queue s_dt]. rewrite R. reflexivity. }
    rewrite RE. cbn [bind]. apply IH.
    + exact (read_sinv (mkS (s_b s1) (s_dt s1) (qs ++ s_queue s1) rd) _ I1 RE).
    + cbn [s_b s_dt]. eexists. exact F3.
Qed.

Lemma init_inv : SInv s_init.
Proof. split; cbn; try contradiction; try discriminate; auto. constructor. Qed.

Lemma load_all : forall chunks, (exists x, fed b_init None (concat chunks) = Ok x) ->
  load uparrows ws s_init chunks = fin (run s_init (concat chunks)).
Proof.
  intros chunks B. exact (load_run chunks [] s_init init_inv B).
Qed.

(** ** Documents *)
(** What expat calls: tags are nested, and attributes come in pairs. [None]: that is not so. *)
Fixpoint nested (open : list pystr) (xs : list raw) : bool :=
  match xs with
  | [] => true
  | XError :: _ => true
  | XStart n a :: xs' => (Nat.even (length a) && nested (n :: open) xs')%bool
  | XEnd n :: xs' => match open with m :: o => (streq n m && nested o xs')%bool | [] => false end
  | _ :: xs' => nested open xs'
  end.

Record Ready (b : bst) (open : list pystr) : Prop := {
  y_tags : map (fun i => n_tag (b_node b i)) (b_elem b) = map fixname open;
  y_tails : forall i, In i (b_elem b) -> n_tail (b_node b i) = None;
  y_last : forall l, b_last b = Some l -> if b_tail b then n_tail (b_node b l) = None /\ ~ In l (b_elem b) else n_text (b_node b l) = None
}.

Lemma map_ext_in' : forall A B (f g : A -> B) l, (forall x, In x l -> f x = g x) -> map f l = map g l.
Proof. intros. apply map_ext_in. assumption. Qed.

Lemma flush_ready : forall b open qs rd, Inv b qs rd -> Ready b open -> exists b1, b_flush b = Ok b1
  /\ b_elem b1 = b_elem b /\ map (fun i => n_tag (b_node b1 i)) (b_elem b) = map fixname open
  /\ (forall i, In i (b_elem b) -> n_tail (b_node b1 i) = None).
Proof.
  intros b open qs rd I [Y1 Y2 Y3].
  destruct (b_flush b) as [b1|e] eqn:F.
  - exists b1. split; [reflexivity |]. destruct (flush_facts b b1 F) as (Fk & Fe & Fl & Ft & Fd & Fn & Ftag & Ftx & Fw).
    split; [exact Fe |]. split.
    + rewrite <- Y1. apply map_ext_in. intros i _. apply Ftag.
    + intros i Hi. unfold b_flush in F. destruct (b_data b) as [|d ds]; [injection F as <-; apply Y2; exact Hi |].
      destruct (b_last b) as [l|] eqn:L; [| injection F as <-; apply Y2; exact Hi].
      specialize (Y3 l eq_refl). destruct (b_tail b).
      * destruct Y3 as (Y3 & Y4). rewrite Y3 in F. injection F as <-. unfold b_node. cbn [b_nodes].
        rewrite nth_upd_other by (intros ->; contradiction). apply Y2. exact Hi.
      * rewrite Y3 in F. injection F as <-. unfold b_node. cbn [b_nodes].
        destruct (Nat.eq_dec l i) as [->|Hne].
        -- rewrite nth_upd_same by exact (i_elem _ _ _ I i Hi). cbn. apply (Y2 i Hi).
        -- rewrite nth_upd_other by exact Hne. apply Y2. exact Hi.
  - exfalso. unfold b_flush in F. destruct (b_data b) as [|d ds]; [discriminate |].
    destruct (b_last b) as [l|] eqn:L; [| discriminate]. specialize (Y3 l eq_refl).
    destruct (b_tail b); [destruct Y3 as (Y3 & _) |]; rewrite Y3 in F; discriminate F.
Qed.

Lemma start_ready : forall b open qs rd n a, Inv b qs rd -> Ready b open ->
  exists b' out, b_op b (OStart (fixname n) a) = Ok (b', out) /\ Ready b' (n :: open).
Proof.
  intros b open qs rd n a I Y. destruct (flush_ready b open qs rd I Y) as (b1 & F & Fe & Ft & Fl).
  cbn [b_op]. rewrite F. cbn [bind]. do 2 eexists. split; [reflexivity |].
  destruct (flush_facts b b1 F) as (_ & _ & _ & _ & _ & Fn & _).
  assert (Hi : forall i, In i (b_elem b) -> i < length (b_nodes b1)) by (intros i Hi; rewrite Fn; exact (i_elem _ _ _ I i Hi)).
  split; cbn [b_elem b_last b_tail b_nodes]; unfold b_node; cbn [b_nodes].
  - rewrite Fe. cbn [map]. rewrite app_nth2, Nat.sub_diag by lia. cbn [nth n_tag]. f_equal. rewrite <- Ft. apply map_ext_in.
    intros i Hin. rewrite app_nth1 by exact (Hi i Hin). reflexivity.
  - rewrite Fe. intros i [<-|Hin]; [rewrite app_nth2, Nat.sub_diag by lia; reflexivity |].
    rewrite app_nth1 by exact (Hi i Hin). exact (Fl i Hin).
  - intros l E. injection E as <-. rewrite app_nth2, Nat.sub_diag by lia. reflexivity.
Qed.
Lemma end_ready : forall b open qs rd n, Inv b qs rd -> Ready b (n :: open) ->
  exists b' out, b_op b (OEnd (fixname n)) = Ok (b', out) /\ Ready b' open.
Proof.
  intros b open qs rd n I Y. destruct (flush_ready b (n :: open) qs rd I Y) as (b1 & F & Fe & Ft & Fl).
  cbn [b_op]. rewrite F. cbn [bind]. rewrite Fe. pose proof (i_nodup _ _ _ I) as ND.
  destruct (b_elem b) as [|i es] eqn:E; [discriminate Ft |]. cbn [map] in Ft. injection Ft as Ft1 Ft2.
  rewrite Ft1, streq_refl. do 2 eexists. split; [reflexivity |].
  split; cbn [b_elem b_last b_tail b_nodes]; unfold b_node in *; cbn [b_nodes].
  - exact Ft2.
  - intros j Hj. apply Fl. right. exact Hj.
  - intros l El. injection El as <-. split; [apply Fl; left; reflexivity |]. inversion ND; assumption.
Qed.

Lemma attr_dict_even : forall l d, Nat.even (length l) = true -> exists d', attr_dict d l = Ok d'.
Proof.
  fix IH 1. intros [|k [|v l]] d H; cbn in *; [eexists; reflexivity | discriminate |]. apply IH. exact H.
Qed.

Lemma nested_feeds : forall xs open b dt qs rd, Inv b qs rd -> Ready b open -> nested open xs = true ->
  exists s, fed b dt xs = Ok s.
Proof.
  induction xs as [|x xs IH]; intros open b dt qs rd I Y H; [eexists; reflexivity |].
  rewrite fed_cons.
  assert (Step : forall os b' q open' dt', b_ops b os = Ok (b', q) -> Ready b' open' -> nested open' xs = true ->
     exists s, (do (b', q) <- b_ops b os; match fed b' dt' xs with Ok s => Ok (mkS (s_b s) (s_dt s) (q ++ s_queue s) r_init) | Raise e => Raise e end) = Ok s).
  { intros os b' q open' dt' E Y' H'. rewrite E. cbn [bind].
    destruct (IH open' b' dt' (qs ++ q) rd (proj1 (ops_run os q qs b b' rd I E)) Y' H') as (s & ->). eexists. reflexivity. }
  destruct x as [n a|n|s|s|p u|s|]; cbn [nested handle] in *.
  - apply andb_prop in H. destruct H as (Ha & H). destruct (attr_dict_even a [] Ha) as (d & ->). cbn [bind].
    destruct (start_ready b open qs rd n d I Y) as (b' & out & E & Y').
    apply (Step _ b' (out ++ []) (n :: open)); [cbn [b_ops]; rewrite E; reflexivity | exact Y' | exact H].
  - destruct open as [|m o]; [discriminate |]. apply andb_prop in H. destruct H as (Hn & H). apply streq_true in Hn. subst m.
    destruct (end_ready b o qs rd n I Y) as (b' & out & E & Y').
    apply (Step _ b' (out ++ []) o); [cbn [b_ops]; rewrite E; reflexivity | exact Y' | exact H].
  - apply (Step _ (mkB (b_nodes b) (b_kids b) (b_data b ++ [s]) (b_elem b) (b_last b) (b_tail b)) [] open); [reflexivity | | exact H].
    destruct Y as [Y1 Y2 Y3]. split; cbn; auto.
  - cbn [attr_dict bind].
    destruct (start_ready b open qs rd (lit "!--") (dset streq [] (fixname (lit "text")) s) I Y) as (b1 & out1 & E1 & Y1).
    assert (O1 : b_ops b [OStart (fixname (lit "!--")) (dset streq [] (fixname (lit "text")) s)] = Ok (b1, out1 ++ [])).
    { cbn [b_ops]. rewrite E1. reflexivity. }
    destruct (end_ready b1 open (qs ++ (out1 ++ [])) rd (lit "!--") (proj1 (ops_run _ _ qs b b1 rd I O1)) Y1) as (b2 & out2 & E2 & Y2).
    apply (Step _ b2 (out1 ++ (out2 ++ [])) open); [| exact Y2 | exact H].
    change (b_ops b ([OStart (fixname (lit "!--")) (dset streq [] (fixname (lit "text")) s); OEnd (fixname (lit "!--"))]) = Ok (b2, out1 ++ (out2 ++ []))).
    cbn [b_ops]. rewrite E1. cbn [bind]. rewrite E2. reflexivity.
  - apply (Step _ b [QNs (match p with Some s => s | None => [] end) (match u with Some s => s | None => [] end)] open); [reflexivity | exact Y | exact H].
  - destruct (default ws dt s) as [dt'|e] eqn:D; cbn [bind].
    + apply (Step [] b [] open); [reflexivity | exact Y | exact H].
    + assert (De : e = SyntaxErr).
      { unfold default in D.
        repeat match type of D with
               | context [match ?t with _ => _ end] => destruct t; try discriminate D
               end; injection D; auto. }
      subst e. eexists. reflexivity.
  - eexists. reflexivity.
Qed.
Lemma doc_feeds : forall xs, nested [] xs = true -> exists s, fed b_init None xs = Ok s.
Proof.
  intros xs H. apply (nested_feeds xs [] b_init None [] r_init); [exact init_inv | | exact H].
  split; cbn; try contradiction; try discriminate; reflexivity.
Qed.

(** However the calls for a document are divided among chunks, the result is the same: the same
    elements with the same text, children, comments and parents, or the same error. *)
Theorem C80_chunks : forall xs, nested [] xs = true ->
  forall chunks, concat chunks = xs -> load uparrows ws s_init chunks = load uparrows ws s_init [xs].
Proof.
  intros xs H chunks <-. rewrite !load_all; [cbn [concat]; rewrite app_nil_r; reflexivity | | apply doc_feeds; exact H].
  cbn [concat]. rewrite app_nil_r. apply doc_feeds. exact H.
Qed.

(** A document with an error in it, or with an entity that is not declared, is never loaded. *)
Theorem C80_malformed : forall pre bad post, (bad = XError \/ exists s, bad = XDefault (lit "&" ++ s)) ->
  nested [] (pre ++ bad :: post) = true -> forall chunks, concat chunks = pre ++ bad :: post ->
  exists e, load uparrows ws s_init chunks = Raise e.
Proof.
  intros pre bad post Hb H chunks Hc.
  assert (Hh : forall dt, handle ws dt bad = Raise SyntaxErr).
  { intros dt. destruct Hb as [->|(s & ->)]; reflexivity. }
  pose proof (doc_feeds _ H) as B.
  rewrite load_all by (rewrite Hc; exact B). rewrite Hc. destruct B as (x & B).
  unfold run. change s_init with (mkS b_init None [] r_init). rewrite feed_frame, B. cbn [bind].
  assert (Q : forall p b dt s, fed b dt (p ++ bad :: post) = Ok s -> In (QErr SyntaxErr) (s_queue s)).
  { induction p as [|y p IH]; intros b dt s E; cbn [app] in E; rewrite fed_cons in E.
    - rewrite Hh in E. injection E as <-. left. reflexivity.
    - destruct (handle ws dt y) as [[os dt']|e].
      + destruct (b_ops b os) as [[b' q']|e]; cbn [bind] in E; [| discriminate].
        destruct (fed b' dt' (p ++ bad :: post)) as [s'|e] eqn:E'; [| discriminate]. injection E as <-. cbn.
        apply in_or_app. right. exact (IH _ _ _ E').
      + destruct e; try discriminate. injection E as <-. left. reflexivity. }
  specialize (Q _ _ _ _ B). unfold read_events. cbn [s_b s_r s_queue app].
  destruct (r_run uparrows (s_b x) r_init (s_queue x)) as [r|e] eqn:R; [| exists e; reflexivity].
  exfalso. exact (run_no_err _ _ _ _ R SyntaxErr Q).
Qed.

(** ** Text that comes in pieces *)
(** adjacent pieces of text joined *)
Fixpoint joined (xs : list raw) : list raw :=
  match xs with
  | XData a :: xs' => match joined xs' with XData b :: r => XData (a ++ b) :: r | r => XData a :: r end
  | x :: xs' => x :: joined xs'
  | [] => []
  end.
(** what has been loaded: the elements, the children of each, and what the loop noted *)
Definition loaded (r : res state) : res (list node * list (list nat) * reader) :=
  match r with Ok s => Ok (b_nodes (s_b s), b_kids (s_b s), s_r s) | Raise e => Raise e end.

Record TR (b b' : bst) : Prop := {
  t_nodes : b_nodes b = b_nodes b';
  t_kids : b_kids b = b_kids b';
  t_elem : b_elem b = b_elem b';
  t_last : b_last b = b_last b';
  t_tail : b_tail b = b_tail b';
  t_data : concat (b_data b) = concat (b_data b');
  t_nil : b_data b = [] <-> b_data b' = []
}.
Lemma TR_refl : forall b, TR b b.
Proof. intros b. split; reflexivity. Qed.
Lemma TR_sym : forall b b', TR b b' -> TR b' b.
Proof. intros b b' []. split; auto. symmetry. assumption. Qed.
Lemma TR_trans : forall a b c, TR a b -> TR b c -> TR a c.
Proof.
  intros a b c [A1 A2 A3 A4 A5 A6 A7] [B1 B2 B3 B4 B5 B6 B7]. split; try congruence. rewrite A7. exact B7.
Qed.

Lemma flush_TR : forall b b', TR b b' ->
  match b_flush b, b_flush b' with Ok c, Ok c' => c = c' | Raise e, Raise e' => e = e' | _, _ => False end.
Proof.
  intros [n k d e l t] [n' k' d' e' l' t'] [A1 A2 A3 A4 A5 A6 A7]. cbn in *. subst.
  unfold b_flush. cbn [b_data b_nodes b_kids b_elem b_last b_tail].
  destruct d as [|x d].
  - destruct d' as [|x' d']; [reflexivity |]. destruct A7 as (A7 & _). discriminate (A7 eq_refl).
  - destruct d' as [|x' d']; [destruct A7 as (_ & A7); discriminate (A7 eq_refl) |].
    destruct l' as [l|]; [| reflexivity]. unfold b_node. cbn [b_nodes]. rewrite A6.
    destruct t'; [destruct (n_tail _) | destruct (n_text _)]; reflexivity.
Qed.

Definition SR (r r' : res (bst * list qev)) : Prop :=
  match r, r' with Ok (b, q), Ok (b', q') => TR b b' /\ q = q' | Raise e, Raise e' => e = e' | _, _ => False end.
Lemma op_TR : forall o b b', TR b b' -> SR (b_op b o) (b_op b' o).
Proof.
  intros o b b' R. pose proof (flush_TR b b' R) as F. destruct o as [tag a|tag|s|p u]; cbn [b_op].
  - destruct (b_flush b), (b_flush b'); try contradiction; subst; cbn [bind]; [| reflexivity]. split; [apply TR_refl | reflexivity].
  - destruct (b_flush b) as [c|], (b_flush b') as [c'|]; try contradiction; subst; cbn [bind]; [| reflexivity].
    destruct (b_elem c') as [|i es]; [reflexivity |]. destruct (streq _ tag); [| reflexivity]. split; [apply TR_refl | reflexivity].
  - split; [| reflexivity]. destruct R as [A1 A2 A3 A4 A5 A6 A7]. split; cbn; auto.
    + rewrite !concat_app, A6. reflexivity.
    + split; intros E; apply app_eq_nil in E; destruct E as (_ & E); discriminate E.
  - split; [exact R | reflexivity].
Qed.
Lemma ops_TR : forall os b b', TR b b' -> SR (b_ops b os) (b_ops b' os).
Proof.
  induction os as [|o os IH]; intros b b' R; cbn [b_ops]; [split; [exact R | reflexivity] |].
  pose proof (op_TR o b b' R) as O. unfold SR in O.
  destruct (b_op b o) as [[b1 q1]|e], (b_op b' o) as [[b1' q1']|e']; try contradiction; [| exact O].
  destruct O as (R1 & <-). cbn [bind]. specialize (IH b1 b1' R1). unfold SR in IH.
  destruct (b_ops b1 os) as [[b2 q2]|e], (b_ops b1' os) as [[b2' q2']|e']; try contradiction; [| exact IH].
  destruct IH as (R2 & <-). split; [exact R2 | reflexivity].
Qed.
Definition FR (r r' : res state) : Prop :=
  match r, r' with
  | Ok s, Ok s' => TR (s_b s) (s_b s') /\ s_dt s = s_dt s' /\ s_queue s = s_queue s' /\ s_r s = s_r s'
  | Raise e, Raise e' => e = e'
  | _, _ => False
  end.
Lemma FR_trans : forall a b c, FR a b -> FR b c -> FR a c.
Proof.
  intros [a|] [b|] [c|] H H'; cbn in *; try contradiction; try congruence.
  destruct H as (A & B & C & D), H' as (A' & B' & C' & D'). split; [exact (TR_trans _ _ _ A A') |].
  split; [congruence |]. split; congruence.
Qed.
Lemma FR_refl : forall a, FR a a.
Proof. intros [a|]; cbn; auto. split; [apply TR_refl |]. auto. Qed.
Lemma fed_TR : forall xs b b' dt, TR b b' -> FR (fed b dt xs) (fed b' dt xs).
Proof.
  induction xs as [|x xs IH]; intros b b' dt R; [cbn; auto |]. rewrite !fed_cons.
  destruct (handle ws dt x) as [[os dt']|e]; [| destruct e; cbn; auto].
  pose proof (ops_TR os b b' R) as O. unfold SR in O.
  destruct (b_ops b os) as [[b1 q1]|e], (b_ops b' os) as [[b1' q1']|e']; try contradiction; [| exact O].
  destruct O as (R1 & <-). cbn [bind]. specialize (IH b1 b1' dt' R1).
  destruct (fed b1 dt' xs), (fed b1' dt' xs); cbn in *; try contradiction; [| exact IH].
  destruct IH as (A & B & C & D). split; [exact A |]. split; [exact B |]. split; [congruence | reflexivity].
Qed.
Lemma fed_same_step : forall x xs ys b dt, (forall b' dt', FR (fed b' dt' xs) (fed b' dt' ys)) ->
  FR (fed b dt (x :: xs)) (fed b dt (x :: ys)).
Proof.
  intros x xs ys b dt H. rewrite !fed_cons. destruct (handle ws dt x) as [[os dt']|e]; [| apply FR_refl].
  destruct (b_ops b os) as [[b1 q1]|e]; cbn [bind]; [| reflexivity]. specialize (H b1 dt').
  destruct (fed b1 dt' xs), (fed b1 dt' ys); cbn in *; try contradiction; [| exact H].
  destruct H as (A & B & C & D). split; [exact A |]. split; [exact B |]. split; [congruence | reflexivity].
Qed.
Lemma fed_joined : forall xs b dt, FR (fed b dt xs) (fed b dt (joined xs)).
Proof.
  induction xs as [|x xs IH]; intros b dt; [apply FR_refl |].
  destruct x as [n a|n|s|s|p u|s|]; cbn [joined]; try (apply fed_same_step; exact IH).
  apply (FR_trans _ (fed b dt (XData s :: joined xs))); [apply fed_same_step; exact IH |].
  destruct (joined xs) as [|y r]; [apply FR_refl |]. destruct y as [n a|n|s'|s'|p u|s'|]; try apply FR_refl.
  rewrite !fed_cons. cbn [handle b_ops b_op bind app].
  rewrite fed_cons. cbn [handle b_ops b_op bind app b_data b_nodes b_kids b_elem b_last b_tail].
  assert (R : TR (mkB (b_nodes b) (b_kids b) ((b_data b ++ [s]) ++ [s']) (b_elem b) (b_last b) (b_tail b))
                 (mkB (b_nodes b) (b_kids b) (b_data b ++ [s ++ s']) (b_elem b) (b_last b) (b_tail b))).
  { split; cbn; auto.
    - rewrite !concat_app. cbn. rewrite !app_nil_r, app_assoc. reflexivity.
    - split; intros E; apply app_eq_nil in E; destruct E as (_ & E); discriminate E. }
  pose proof (fed_TR r _ _ dt R) as F. 
  destruct (fed (mkB (b_nodes b) (b_kids b) ((b_data b ++ [s]) ++ [s']) (b_elem b) (b_last b) (b_tail b)) dt r) as [u|u],
    (fed (mkB (b_nodes b) (b_kids b) (b_data b ++ [s ++ s']) (b_elem b) (b_last b) (b_tail b)) dt r) as [v|v];
    cbn in *; try contradiction; [| exact F].
  destruct F as (A & B & C & D). auto.
Qed.

Lemma run_TR : forall qs b b' rd, TR b b' ->
  match r_run uparrows b rd qs, r_run uparrows b' rd qs with
  | Ok (c, r), Ok (c', r') => TR c c' /\ r = r' | Raise e, Raise e' => e = e' | _, _ => False end.
Proof.
  induction qs as [|q qs IH]; intros b b' rd R; cbn [r_run]; [split; [exact R | reflexivity] |].
  rewrite <- (t_nodes _ _ R), <- (t_kids _ _ R).
  destruct (r_step uparrows (b_nodes b) (b_kids b) rd q) as [[k rd']|e]; cbn [bind]; [| reflexivity].
  apply IH. destruct R as [A1 A2 A3 A4 A5 A6 A7]. split; cbn; auto.
Qed.

Lemma fin_FR : forall s s', FR (Ok s) (Ok s') -> s_queue s = [] -> loaded (fin (Ok s)) = loaded (fin (Ok s')).
Proof.
  intros s s' (R & D & Q & E) H. unfold fin. cbn [bind]. unfold close. rewrite <- (t_elem _ _ R), <- (t_last _ _ R).
  destruct (b_elem (s_b s)); [| reflexivity]. destruct (b_last (s_b s)); [| reflexivity]. cbn [bind].
  unfold read_events. rewrite <- Q, H. cbn. rewrite (t_nodes _ _ R), (t_kids _ _ R), E. reflexivity.
Qed.

(** The result does not depend either on the pieces in which expat gives the text, which do
    depend on the chunks. *)
Theorem C80_pieces : forall xs, nested [] xs = true ->
  forall chunks, joined (concat chunks) = joined xs ->
  loaded (load uparrows ws s_init chunks) = loaded (load uparrows ws s_init [xs]).
Proof.
  intros xs H chunks J.
  pose proof (doc_feeds xs H) as B.
  assert (FRx : FR (fed b_init None (concat chunks)) (fed b_init None xs)).
  { pose proof (fed_joined xs b_init None) as F1. pose proof (fed_joined (concat chunks) b_init None) as F2.
    rewrite J in F2. apply (FR_trans _ _ _ F2). destruct (fed b_init None xs) as [x|], (fed b_init None (joined xs)) as [y|];
      cbn in *; try contradiction; [| symmetry; exact F1]. destruct F1 as (A & B' & C & D).
    split; [exact (TR_sym _ _ A) |]. auto. }
  assert (B' : exists x, fed b_init None (concat chunks) = Ok x).
  { destruct B as (x & B). rewrite B in FRx. destruct (fed b_init None (concat chunks)) as [y|]; [exists y; reflexivity | contradiction]. }
  rewrite (load_all chunks B'). rewrite (load_all [xs]) by (cbn [concat]; rewrite app_nil_r; exact B).
  cbn [concat]. rewrite app_nil_r. destruct B as (x & B), B' as (y & B').
  rewrite B, B' in FRx. unfold run. change s_init with (mkS b_init None [] r_init). rewrite !feed_frame, B, B'. cbn [bind].
  destruct FRx as (R & D & Q & E). unfold read_events. cbn [s_b s_dt s_queue s_r app]. rewrite Q.
  pose proof (run_TR (s_queue x) (s_b y) (s_b x) r_init R) as T.
  destruct (r_run uparrows (s_b y) r_init (s_queue x)) as [[c r]|e], (r_run uparrows (s_b x) r_init (s_queue x)) as [[c' r']|e'];
    try contradiction; [| cbn; congruence].
  destruct T as (T1 & <-). cbn [bind]. apply fin_FR; [| reflexivity]. split; [exact T1 |]. cbn. auto.
Qed.
End Loop.
