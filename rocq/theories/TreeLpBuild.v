(** Building the solver model of the tree master problem step by step. *)
From Verif Require Import Base Lp LpProofs TreeModel SpecTree TreeGeoProofs TreePathProofs.
Open Scope nat_scope.

(** * Setting coefficients to one *)

Definition mem2 (i j : nat) (l : list (nat * nat)) : bool := existsb (fun c => (fst c =? i) && (snd c =? j)) l.
Lemma mem2_In i j l : mem2 i j l = true <-> In (i, j) l.
Proof.
  unfold mem2. rewrite existsb_exists. split.
  - intros [[a b] [H E]]. apply andb_true_iff in E. destruct E as [E1 E2].
    apply Nat.eqb_eq in E1, E2. simpl in *. subst. auto.
  - intros H. exists (i, j). simpl. rewrite !Nat.eqb_refl. auto.
Qed.

Definition ones (l : list (nat * nat)) (m : lp) : lp := fold_left (fun m cv => set_coef (fst cv) (snd cv) 1%Q m) l m.

(** [m'] is [m] with coefficient 1 at the positions of [l]. *)
Record ones_rel (l : list (nat * nat)) (m m' : lp) : Prop := {
  or_vars : lp_vars m' = lp_vars m;
  or_obj : lp_obj m' = lp_obj m;
  or_off : lp_off m' = lp_off m;
  or_max : lp_max m' = lp_max m;
  or_cons : num_cons m' = num_cons m;
  or_con : forall i k, nth_error (lp_cons m) i = Some k -> exists k', nth_error (lp_cons m') i = Some k' /\
    c_lb k' = c_lb k /\ c_ub k' = c_ub k /\ forall j, c_coef k' j = if mem2 i j l then 1%Q else c_coef k j
}.

Lemma ones_rel_nil m : ones_rel [] m m.
Proof. split; auto. intros i k H. exists k. auto. Qed.

Lemma ones_rel_set c v m : ones_rel [(c, v)] m (set_coef c v 1%Q m).
Proof.
  split; auto.
  - unfold num_cons. simpl. apply map_nth_length.
  - intros i k H. simpl. rewrite map_nth_nth_error, H. simpl.
    destruct (Nat.eqb_spec i c) as [->|Hne].
    + eexists. split; [reflexivity|]. simpl. repeat split; auto. intros j. rewrite Nat.eqb_refl. simpl. unfold upd.
      rewrite (Nat.eqb_sym v j). destruct (j =? v); reflexivity.
    + exists k. repeat split; auto. intros j. simpl.
      assert (E : (c =? i) = false) by (apply Nat.eqb_neq; congruence). rewrite E. reflexivity.
Qed.

Lemma ones_rel_trans l1 l2 m m1 m2 : ones_rel l1 m m1 -> ones_rel l2 m1 m2 -> ones_rel (l1 ++ l2) m m2.
Proof.
  intros [A1 A2 A3 A4 A5 A6] [B1 B2 B3 B4 B5 B6]. split; try congruence.
  intros i k H. destruct (A6 i k H) as (k1 & E1 & L1 & U1 & C1). destruct (B6 i k1 E1) as (k2 & E2 & L2 & U2 & C2).
  exists k2. repeat split; try congruence. intros j. rewrite C2, C1. unfold mem2. rewrite existsb_app.
  destruct (existsb _ l1), (existsb _ l2); reflexivity.
Qed.

Lemma ones_rel_ones l : forall m, ones_rel l m (ones l m).
Proof.
  induction l as [|[c v] l IH]; intros m; [apply ones_rel_nil|].
  change ((c, v) :: l) with ([(c, v)] ++ l) at 1. eapply ones_rel_trans; [apply ones_rel_set|apply IH].
Qed.

Lemma ones_app l1 l2 m : ones (l1 ++ l2) m = ones l2 (ones l1 m).
Proof. apply fold_left_app. Qed.

Lemma set_ones_ones c ps m : set_ones c ps m = ones (map (fun p => (c, p_id p)) ps) m.
Proof.
  unfold set_ones, ones. revert m. induction ps as [|p ps IH]; intros m; simpl; auto.
Qed.

(** A loop whose steps set coefficients to one. *)
Lemma for_each_ones {A} (l : list A) (body : A -> lp -> res lp) (f : A -> list (nat * nat)) :
  (forall a m, In a l -> body a m = Ok (ones (f a) m)) ->
  forall m, for_each l body m = Ok (ones (flat_map f l) m).
Proof.
  induction l as [|a l IH]; intros H m; simpl; auto.
  rewrite H by (simpl; auto). simpl. rewrite ones_app. apply IH. intros; apply H; simpl; auto.
Qed.

(** * Lists without duplicates *)

Lemma NoDup_app_l {A} (l m : list A) : NoDup (l ++ m) -> NoDup l.
Proof.
  induction l as [|a l IH]; simpl; intros H; [constructor|]. inversion H as [|? ? Hn Hd]; subst. constructor; auto.
  intros Hi. apply Hn, in_app_iff. auto.
Qed.
Lemma NoDup_app_r {A} (l m : list A) : NoDup (l ++ m) -> NoDup m.
Proof. induction l as [|a l IH]; simpl; intros H; auto. inversion H; subst. auto. Qed.
Lemma NoDup_app_disj {A} (l m : list A) a : NoDup (l ++ m) -> In a l -> In a m -> False.
Proof.
  induction l as [|b l IH]; simpl; intros H Hl Hm; auto. inversion H as [|? ? Hn Hd]; subst.
  destruct Hl as [->|Hl]; auto. apply Hn, in_app_iff. auto.
Qed.
Lemma NoDup_map_inj {A B} (f : A -> B) l a b : NoDup (map f l) -> In a l -> In b l -> f a = f b -> a = b.
Proof.
  induction l as [|c l IH]; simpl; intros H Ha Hb E; [contradiction|]. inversion H as [|? ? Hn Hd]; subst.
  destruct Ha as [->|Ha], Hb as [->|Hb]; auto; exfalso; apply Hn.
  - rewrite E. apply in_map. auto.
  - rewrite <- E. apply in_map. auto.
Qed.

(** * Which paths take part, as a boolean *)

Definition leaf_of (leaves : list leaf) (p : path) : leaf := nth (p_leaf p) leaves (mkLeaf 0 [] []).
Definition pair_mem (n k : nat) (l : list (nat * nat)) : bool := mem2 n k l.

Definition covb (X : list sample) (leaves : list leaf) (splits : list split) (c : ckind) (p : path) : bool :=
  match c with
  | KLeaf l => p_leaf p =? l
  | KRow r => match nth_error X r with
              | Some x => (p_leaf p <? length leaves) && followsb (leaf_of leaves p) (goes_left splits x) p
              | None => false
              end
  | KCut z => (p_leaf p <? length leaves) && followsb (leaf_of leaves p) (fun k => nth k z false) p
  | KChoice l n k => (p_leaf p =? l) && mem2 n k (choices p)
  end.

Lemma leaf_of_nth leaves p lf : nth_error leaves (p_leaf p) = Some lf -> leaf_of leaves p = lf.
Proof. intros H. unfold leaf_of. apply nth_error_nth. auto. Qed.

Lemma covb_iff X leaves splits c p : covb X leaves splits c p = true <-> covers X leaves splits c p.
Proof.
  destruct c as [l|r|z|l n k]; simpl.
  - apply Nat.eqb_eq.
  - destruct (nth_error X r) as [x|] eqn:E.
    + rewrite andb_true_iff, Nat.ltb_lt, followsb_iff. split.
      * intros [H1 H2]. destruct (nth_error leaves (p_leaf p)) as [lf|] eqn:El; [|apply nth_error_None in El; lia].
        exists x, lf. rewrite (leaf_of_nth _ _ _ El) in H2. auto.
      * intros (x' & lf & Ex & El & H). injection Ex as <-. rewrite (leaf_of_nth _ _ _ El). split; auto.
        apply nth_error_Some. congruence.
    + split; [discriminate|]. intros (x & lf & H & _). discriminate.
  - rewrite andb_true_iff, Nat.ltb_lt, followsb_iff. split.
    + intros [H1 H2]. destruct (nth_error leaves (p_leaf p)) as [lf|] eqn:El; [|apply nth_error_None in El; lia].
      exists lf. rewrite (leaf_of_nth _ _ _ El) in H2. auto.
    + intros (lf & El & H). rewrite (leaf_of_nth _ _ _ El). split; auto. apply nth_error_Some. congruence.
  - rewrite andb_true_iff, Nat.eqb_eq, mem2_In. reflexivity.
Qed.

Definition b2q (b : bool) : Q := if b then 1%Q else 0%Q.

(** * Invariant of the solver model while it is built *)

Section Build.
Variable cov : ckind -> path -> bool.
Hypothesis cov_id : forall c p i, cov c (with_id p i) = cov c p.

Definition choice_coef (c : ckind) (n k : nat) : Q :=
  match c with KChoice _ n' k' => if (n' =? n) && (k' =? k) then (-1)%Q else 0%Q | _ => 0%Q end.

(** Constraint [k] is of kind [c]. *)
Record con_ok (paths : list path) (nsv : list (key2 * nat)) (nv : nat) (c : ckind) (k : lpcon) : Prop := {
  co_bounds : (c_lb k, c_ub k) = kind_bounds c;
  co_paths : forall p, In p paths -> (c_coef k (p_id p) == b2q (cov c p))%Q;
  co_choice : forall n s v, In ((n, s), v) nsv -> (c_coef k v == choice_coef c n s)%Q;
  co_rest : forall j, nv <= j -> (c_coef k j == 0)%Q
}.

Record lp_ok (paths : list path) (nsv : list (key2 * nat)) (kinds : list ckind) (m : lp) : Prop := {
  lo_vars : Forall (eq (mkVar (Some 0%Q) None true)) (lp_vars m);
  lo_ids : NoDup (map p_id paths ++ map snd nsv);
  lo_keys : NoDup (map fst nsv);
  lo_all : forall j, In j (map p_id paths ++ map snd nsv) <-> j < num_vars m;
  lo_off : (lp_off m == 0)%Q;
  lo_obj : forall p, In p paths -> (lp_obj m (p_id p) == p_cost p)%Q;
  lo_obj0 : forall j, ~ In j (map p_id paths) -> (lp_obj m j == 0)%Q;
  lo_cons : Forall2 (con_ok paths nsv (num_vars m)) kinds (lp_cons m)
}.

Lemma Forall2_length' {A B} (P : A -> B -> Prop) l m : Forall2 P l m -> length l = length m.
Proof. induction 1; simpl; auto. Qed.

Lemma lp_ok_kinds paths nsv kinds m : lp_ok paths nsv kinds m -> length kinds = num_cons m.
Proof. intros H. apply (Forall2_length' _ _ _ (lo_cons _ _ _ _ H)). Qed.

Lemma lp_ok_empty : lp_ok [] [] [] empty_lp.
Proof.
  split; simpl; try constructor; try reflexivity; try tauto.
  unfold num_vars. simpl. lia.
Qed.

Lemma lp_ok_dir paths nsv kinds m b : lp_ok paths nsv kinds m -> lp_ok paths nsv kinds (set_dir b m).
Proof. intros [H1 H2 H3 H4 H5 H6 H7 H8]. split; auto. Qed.

(** A new column: variable, cost, coefficients. *)
Lemma lp_ok_column paths nsv kinds m m' p l : lp_ok paths nsv kinds m ->
  let v := num_vars m in
  ones_rel l (set_obj v (p_cost p) (snd (new_var (Some 0%Q) None true m))) m' ->
  (forall i j, In (i, j) l -> j = v) ->
  (forall i c, nth_error kinds i = Some c -> (In (i, v) l <-> cov c p = true)) ->
  lp_ok (paths ++ [with_id p v]) nsv kinds m'.
Proof.
  intros [Hv Hi Hk Ha Ho Hb Hb0 Hc] v [Rv Ro Rf Rm Rn Rc] Hl Hcov. simpl in *.
  assert (Hnv : num_vars m' = S (num_vars m)).
  { unfold num_vars. rewrite Rv, app_length. simpl. lia. }
  assert (Hfresh : ~ In v (map p_id paths ++ map snd nsv)) by (rewrite Ha; unfold v; lia).
  split.
  - rewrite Rv. apply Forall_app. split; auto.
  - rewrite map_app. simpl. eapply Permutation_NoDup.
    + rewrite <- app_assoc. simpl. apply Permutation_middle.
    + constructor; auto.
  - auto.
  - intros j. rewrite Hnv, map_app, <- app_assoc. simpl. rewrite in_app_iff. simpl. specialize (Ha j). rewrite in_app_iff in Ha.
    fold v. split; [intros [H|[H|H]]|].
    + assert (j < num_vars m) by tauto. lia.
    + subst j. unfold v. lia.
    + assert (j < num_vars m) by tauto. lia.
    + intros H. destruct (Nat.eq_dec j v) as [->|Hne]; auto. assert (j < num_vars m) by (unfold v in Hne; lia). tauto.
  - rewrite Rf. auto.
  - intros q Hq. rewrite Ro. apply in_app_iff in Hq. destruct Hq as [Hq|[<-|[]]].
    + rewrite upd_other; auto. intros E. apply Hfresh. fold v in E. rewrite <- E. apply in_app_iff. left. apply in_map. auto.
    + simpl. rewrite upd_same. reflexivity.
  - intros j Hj. rewrite Ro. rewrite map_app, in_app_iff in Hj. simpl in Hj.
    rewrite upd_other; [apply Hb0; tauto|]. intros E. apply Hj. right. left. auto.
  - apply Forall2_intro_nth.
    + rewrite (Forall2_length' _ _ _ Hc). symmetry. exact Rn.
    + intros i c k' Hci Hk'.
      destruct (Forall2_nth_error _ _ _ _ _ Hc Hci) as (k & Hki & [B1 B2 B3 B4]).
      destruct (Rc i k Hki) as (k2 & E2 & L2 & U2 & C2). rewrite Hk' in E2. injection E2 as <-.
      assert (Hm : forall j, j <> v -> c_coef k' j = c_coef k j).
      { intros j Hj. rewrite C2. destruct (mem2 i j l) eqn:E; auto. apply mem2_In in E. apply Hl in E. contradiction. }
      split.
      * rewrite L2, U2. auto.
      * intros q Hq. apply in_app_iff in Hq. destruct Hq as [Hq|[<-|[]]].
        -- rewrite Hm; auto. intros E. apply Hfresh. rewrite <- E. apply in_app_iff. left. apply in_map. auto.
        -- simpl. rewrite cov_id, C2. specialize (Hcov i c Hci). rewrite <- mem2_In in Hcov.
           assert (Ev : (c_coef k v == 0)%Q) by (apply B4; unfold v; lia).
           destruct (mem2 i v l) eqn:E.
           ++ assert (Ec : cov c p = true) by (apply Hcov; reflexivity). rewrite Ec. reflexivity.
           ++ rewrite Ev. destruct (cov c p) eqn:Ec; [|reflexivity].
              exfalso. assert (false = true) by (apply Hcov; reflexivity). discriminate.
      * intros n s j Hj. rewrite Hm; auto. intros E. apply Hfresh. rewrite <- E. apply in_app_iff. right.
        change j with (snd ((n, s), j)). apply in_map. auto.
      * intros j Hj. rewrite Hnv in Hj. rewrite Hm by (unfold v; lia). apply B4. lia.
Qed.

(** A new constraint that is not a choice constraint. *)
Lemma lp_ok_con paths nsv kinds m m' c l : lp_ok paths nsv kinds m ->
  (forall n k, (choice_coef c n k == 0)%Q) ->
  let '(i0, m1) := new_con (fst (kind_bounds c)) (snd (kind_bounds c)) m in
  ones_rel l m1 m' ->
  (forall i j, In (i, j) l <-> i = i0 /\ exists p, In p paths /\ p_id p = j /\ cov c p = true) ->
  lp_ok paths nsv (kinds ++ [c]) m'.
Proof.
  intros H Hcc. simpl. intros [Rv Ro Rf Rm Rn Rc] Hl. pose proof (lp_ok_kinds _ _ _ _ H) as Hlen.
  destruct H as [Hv Hi Hk Ha Ho Hb Hb0 Hc]. simpl in *.
  assert (Hnv : num_vars m' = num_vars m) by (unfold num_vars; rewrite Rv; reflexivity).
  split; auto; try (rewrite Rv; auto); try (rewrite Ro; auto); try (rewrite Rf; auto).
  - intros j. rewrite Hnv. apply Ha.
  - apply Forall2_intro_nth.
    + rewrite app_length. simpl. unfold num_cons in Rn at 1. rewrite Rn. unfold num_cons. simpl. rewrite app_length. simpl.
      unfold num_cons in Hlen. lia.
    + intros i c' k' Hci Hk'.
      destruct (Nat.lt_ge_cases i (length kinds)) as [Hlt|Hge].
      * rewrite nth_error_app1 in Hci by auto.
        destruct (Forall2_nth_error _ _ _ _ _ Hc Hci) as (k & Hki & [B1 B2 B3 B4]).
        destruct (Rc i k) as (k2 & E2 & L2 & U2 & C2).
        { rewrite nth_error_app1; auto. apply nth_error_Some. congruence. }
        rewrite Hk' in E2. injection E2 as <-.
        assert (Hm : forall j, c_coef k' j = c_coef k j).
        { intros j. rewrite C2. destruct (mem2 i j l) eqn:E; auto. apply mem2_In, Hl in E. destruct E as [-> _].
          unfold num_cons in Hlen. lia. }
        rewrite Hnv. split; intros; rewrite ?L2, ?U2, ?Hm; eauto.
      * rewrite nth_error_app2 in Hci by auto. destruct (i - length kinds) as [|z] eqn:Ez; [|destruct z; discriminate].
        injection Hci as <-. assert (i = num_cons m) by lia. subst i.
        destruct (Rc (num_cons m) (mkCon (fst (kind_bounds c)) (snd (kind_bounds c)) (fun _ => 0%Q))) as (k2 & E2 & L2 & U2 & C2).
        { unfold num_cons. rewrite nth_error_app2, Nat.sub_diag by lia. reflexivity. }
        rewrite Hk' in E2. injection E2 as <-. simpl in *.
        rewrite Hnv. split.
        -- rewrite L2, U2. destruct (kind_bounds c); reflexivity.
        -- intros p Hp. rewrite C2. destruct (mem2 (num_cons m) (p_id p) l) eqn:E.
           ++ apply mem2_In, Hl in E. destruct E as [_ (q & Hq & Eq & Ecov)].
              assert (q = p)
                by (apply (NoDup_map_inj p_id paths); auto; apply (NoDup_app_l _ _ Hi)).
              subst q. rewrite Ecov. reflexivity.
           ++ destruct (cov c p) eqn:Ecov; [|reflexivity]. exfalso.
              assert (mem2 (num_cons m) (p_id p) l = true) by (apply mem2_In, Hl; split; auto; exists p; auto). congruence.
        -- intros n s v Hin. rewrite C2. destruct (mem2 (num_cons m) v l) eqn:E.
           ++ exfalso. apply mem2_In, Hl in E. destruct E as [_ (q & Hq & Eq & _)].
              assert (In v (map p_id paths)) by (rewrite <- Eq; apply in_map; auto).
              assert (In v (map snd nsv)) by (change v with (snd ((n, s), v)); apply in_map; auto).
              apply (NoDup_app_disj _ _ v Hi); auto.
           ++ rewrite Hcc. reflexivity.
        -- intros j Hj. rewrite C2. destruct (mem2 (num_cons m) j l) eqn:E; [|reflexivity].
           exfalso. apply mem2_In, Hl in E. destruct E as [_ (q & Hq & Eq & _)].
           assert (j < num_vars m) by (apply Ha, in_app_iff; left; rewrite <- Eq; apply in_map; auto). lia.
Qed.

(** A new choice variable. *)
Lemma lp_ok_choice_var paths nsv kinds m n s : lp_ok paths nsv kinds m -> ~ In (n, s) (map fst nsv) ->
  (forall l, ~ In (KChoice l n s) kinds) ->
  let '(v, m1) := new_var (Some 0%Q) None true m in lp_ok paths (nsv ++ [((n, s), v)]) kinds m1.
Proof.
  intros [Hv Hi Hk Ha Ho Hb Hb0 Hc] Hnew Hnk. simpl.
  assert (Hfresh : ~ In (num_vars m) (map p_id paths ++ map snd nsv)) by (rewrite Ha; lia).
  set (m1 := mkLp (lp_vars m ++ [mkVar (Some 0%Q) None true]) (lp_obj m) (lp_off m) (lp_max m) (lp_cons m)).
  assert (Hnv : num_vars m1 = S (num_vars m)) by (unfold num_vars, m1; simpl; rewrite app_length; simpl; lia).
  split; auto.
  - simpl. apply Forall_app. auto.
  - rewrite map_app, app_assoc. simpl. apply NoDup_snoc; auto.
  - rewrite map_app. simpl. apply NoDup_snoc; auto.
  - intros j. rewrite Hnv, map_app, app_assoc, in_app_iff, Ha. simpl. fold (num_vars m).
    split; [intros [H|[H|[]]]; lia|intros H]. destruct (Nat.eq_dec j (num_vars m)); auto. left. lia.
  - rewrite Hnv. simpl. clear - Hc Hnk. induction Hc as [|c k cs ks HB HF IH]; constructor.
    + destruct HB as [B1 B2 B3 B4]. split; auto.
      * intros n' s' v' Hin. apply in_app_iff in Hin. destruct Hin as [Hin|[E|[]]]; eauto.
        injection E as <- <- <-. rewrite (B4 _ (Nat.le_refl _)). destruct c as [| | |l n' k']; simpl; try reflexivity.
        destruct (Nat.eqb_spec n' n), (Nat.eqb_spec k' s); simpl; try reflexivity. subst. exfalso.
        apply (Hnk l). simpl. auto.
      * intros j Hj. apply B4. lia.
    + apply IH. intros l Hl. apply (Hnk l). simpl. auto.
Qed.

(** A new choice constraint. *)
Lemma lp_ok_choice_con paths nsv kinds m m' l n s v ls : lp_ok paths nsv kinds m -> In ((n, s), v) nsv ->
  let '(i0, m1) := new_con (Some 0%Q) (Some 0%Q) m in
  ones_rel ls (set_coef i0 v (-1)%Q m1) m' ->
  (forall i j, In (i, j) ls <-> i = i0 /\ exists p, In p paths /\ p_id p = j /\ cov (KChoice l n s) p = true) ->
  lp_ok paths nsv (kinds ++ [KChoice l n s]) m'.
Proof.
  intros H Hin0. simpl. intros [Rv Ro Rf Rm Rn Rc] Hl. pose proof (lp_ok_kinds _ _ _ _ H) as Hlen.
  destruct H as [Hv Hi Hk Ha Ho Hb Hb0 Hc]. simpl in *.
  assert (Hnv : num_vars m' = num_vars m) by (unfold num_vars; rewrite Rv; reflexivity).
  assert (Hdisj : forall j, In j (map p_id paths) -> ~ In j (map snd nsv)).
  { intros j H1 H2. apply (NoDup_app_disj _ _ j Hi); auto. }
  assert (Hvv : In v (map snd nsv)) by (change v with (snd ((n, s), v)); apply in_map; auto).
  assert (Hcon : forall i k, nth_error (lp_cons m) i = Some k ->
    nth_error (map_nth (fun k0 => mkCon (c_lb k0) (c_ub k0) (upd (c_coef k0) v (-1)%Q))
      (lp_cons m ++ [mkCon (Some 0%Q) (Some 0%Q) (fun _ => 0%Q)]) (num_cons m)) i = Some k).
  { intros i k Hik. assert (i < length (lp_cons m)) by (apply nth_error_Some; congruence).
    rewrite map_nth_nth_error. assert (E : (i =? num_cons m) = false) by (apply Nat.eqb_neq; unfold num_cons; lia).
    rewrite E, nth_error_app1 by auto. auto. }
  split; auto; try (rewrite Rv; auto); try (rewrite Ro; auto); try (rewrite Rf; auto).
  - intros j. rewrite Hnv. apply Ha.
  - apply Forall2_intro_nth.
    + rewrite app_length. simpl. unfold num_cons in Rn at 1. rewrite Rn. unfold num_cons. simpl.
      rewrite map_nth_length, app_length. simpl. unfold num_cons in Hlen. lia.
    + intros i c' k' Hci Hk'.
      destruct (Nat.lt_ge_cases i (length kinds)) as [Hlt|Hge].
      * rewrite nth_error_app1 in Hci by auto.
        destruct (Forall2_nth_error _ _ _ _ _ Hc Hci) as (k & Hki & [B1 B2 B3 B4]).
        destruct (Rc i k (Hcon i k Hki)) as (k2 & E2 & L2 & U2 & C2).
        rewrite Hk' in E2. injection E2 as <-.
        assert (Hm : forall j, c_coef k' j = c_coef k j).
        { intros j. rewrite C2. destruct (mem2 i j ls) eqn:E; auto. apply mem2_In, Hl in E. destruct E as [-> _].
          unfold num_cons in Hlen. lia. }
        rewrite Hnv. split; intros; rewrite ?L2, ?U2, ?Hm; eauto.
      * rewrite nth_error_app2 in Hci by auto. destruct (i - length kinds) as [|z] eqn:Ez; [|destruct z; discriminate].
        injection Hci as <-. assert (i = num_cons m) by lia. subst i.
        destruct (Rc (num_cons m) (mkCon (Some 0%Q) (Some 0%Q) (upd (fun _ => 0%Q) v (-1)%Q))) as (k2 & E2 & L2 & U2 & C2).
        { rewrite map_nth_nth_error, Nat.eqb_refl. unfold num_cons.
          rewrite nth_error_app2, Nat.sub_diag by lia. reflexivity. }
        rewrite Hk' in E2. injection E2 as <-. simpl in *.
        rewrite Hnv. split.
        -- rewrite L2, U2. reflexivity.
        -- intros p Hp. rewrite C2. assert (Hpv : p_id p <> v).
           { intros E. apply (Hdisj v); auto. rewrite <- E. apply in_map. auto. }
           rewrite upd_other by auto. destruct (mem2 (num_cons m) (p_id p) ls) eqn:E.
           ++ apply mem2_In, Hl in E. destruct E as [_ (q & Hq & Eq & Ecov)].
              assert (q = p)
                by (apply (NoDup_map_inj p_id paths); auto; apply (NoDup_app_l _ _ Hi)).
              subst q. rewrite Ecov. reflexivity.
           ++ destruct (cov (KChoice l n s) p) eqn:Ecov; [|reflexivity]. exfalso.
              assert (mem2 (num_cons m) (p_id p) ls = true) by (apply mem2_In, Hl; split; auto; exists p; auto). congruence.
        -- intros n' s' v' Hin. rewrite C2. destruct (mem2 (num_cons m) v' ls) eqn:E.
           ++ exfalso. apply mem2_In, Hl in E. destruct E as [_ (q & Hq & Eq & _)].
              apply (Hdisj v'); [rewrite <- Eq; apply in_map; auto|].
              change v' with (snd ((n', s'), v')). apply in_map. auto.
           ++ destruct (Nat.eq_dec v' v) as [->|Hne].
              ** assert (Ekey : ((n', s'), v) = ((n, s), v))
                   by (apply (NoDup_map_inj snd nsv); auto; apply (NoDup_app_r _ _ Hi)).
                 injection Ekey as -> ->. rewrite upd_same. unfold choice_coef. rewrite !Nat.eqb_refl. reflexivity.
              ** rewrite upd_other by auto. unfold choice_coef. destruct (Nat.eqb_spec n n'), (Nat.eqb_spec s s'); simpl; try reflexivity.
                 subst. exfalso. apply Hne.
                 assert (Ek : ((n', s'), v') = ((n', s'), v)) by (apply (NoDup_map_inj fst nsv); auto). congruence.
        -- intros j Hj. rewrite C2. destruct (mem2 (num_cons m) j ls) eqn:E.
           ++ exfalso. apply mem2_In, Hl in E. destruct E as [_ (q & Hq & Eq & _)].
              assert (j < num_vars m) by (apply Ha, in_app_iff; left; rewrite <- Eq; apply in_map; auto). lia.
           ++ rewrite upd_other; [reflexivity|]. intros ->.
              assert (v < num_vars m) by (apply Ha, in_app_iff; auto). lia.
Qed.
End Build.
