(** The random heuristic: choice of splits and target, reduced cost, the loop. *)
From Verif Require Import Base Lp LpProofs TreeModel SpecTree SpecTreeRun SpecTreeLp SpecTreePrice TreePricingModel TreeGeoProofs
  TreePathProofs TreeLpBuild TreeBuildProofs TreeInvProofs TreeOpProofs TreeFormProofs TreeMasterProofs TreeSolProofs TreePriceProofs.
Open Scope nat_scope.

(** * Choosing splits *)

Lemma remove_first_In s l a : In a (remove_first s l) -> In a l.
Proof.
  induction l as [|b l IH]; simpl; auto. destruct (Nat.eqb_spec b s); simpl; auto. intros [H|H]; auto.
Qed.
Lemma remove_first_NoDup s l : NoDup l -> NoDup (remove_first s l) /\ ~ In s (remove_first s l).
Proof.
  induction l as [|b l IH]; simpl; [auto using NoDup_nil|]. intros H. inversion H; subst. destruct (Nat.eqb_spec b s); simpl.
  - subst. auto.
  - destruct (IH H3). split; [constructor; auto|].
    + intros Hin. apply remove_first_In in Hin. auto.
    + intros [E|Hin]; auto.
Qed.
Lemma unused_In chosen l a : In a (fold_left (fun c s => if memb s c then remove_first s c else c) chosen l) -> In a l.
Proof.
  revert l. induction chosen as [|s chosen IH]; simpl; auto. intros l H. apply IH in H. destruct (memb s l); auto.
  apply remove_first_In in H. auto.
Qed.
Lemma unused_new chosen : forall l a, NoDup l -> In a (fold_left (fun c s => if memb s c then remove_first s c else c) chosen l) ->
  ~ In a chosen.
Proof.
  induction chosen as [|s chosen IH]; simpl; [auto|]. intros l a Hn H [<-|Hin].
  - apply unused_In in H. destruct (memb s l) eqn:E; [|apply memb_false in E; auto]. apply (remove_first_NoDup s l Hn). auto.
  - revert Hin. eapply IH; [|exact H]. destruct (memb s l); auto. apply remove_first_NoDup. auto.
Qed.

Lemma choice_ok {A} rand k (l : list A) : l <> [] -> exists a, choice rand k l = Ok (a, S k) /\ In a l.
Proof.
  intros H. unfold choice. destruct l as [|x l]; [congruence|].
  destruct (Nat.eqb_spec (length (x :: l)) 0) as [E|_]; [discriminate|].
  destruct (getitem_lt (x :: l) (rand k mod length (x :: l))) as [a Ha]; [apply Nat.mod_upper_bound; discriminate|].
  exists a. rewrite Ha. split; auto. apply getitem_ok, nth_error_In in Ha. auto.
Qed.

Definition candidate (nodes : list node) (id s : nat) : Prop := exists nd, nth_error nodes id = Some nd /\ In s (n_cands nd).

Lemma pick_ok rand nodes ids : Forall (fun id => id < length nodes) ids -> forall chosen k,
  exists r k', pick_splits rand nodes ids chosen k = Ok (r, k') /\
    forall ss, r = Some ss -> exists new, ss = chosen ++ new /\ Forall2 (candidate nodes) ids new /\
      ((forall nd, In nd nodes -> NoDup (n_cands nd)) -> NoDup chosen -> NoDup ss).
Proof.
  induction 1 as [|id ids Hid Hids IH]; intros chosen k; cbn [pick_splits].
  - exists (Some chosen), k. split; auto. intros ss E. injection E as <-. exists []. rewrite app_nil_r. auto.
  - destruct (nth_error nodes id) as [nd|] eqn:En; [|apply nth_error_None in En; lia]. rewrite (getitem_nth _ _ _ En). cbn [bind].
    set (cands := fold_left _ chosen (n_cands nd)). destruct (Nat.eqb_spec (length cands) 0) as [E0|E0].
    + exists None, k. split; auto. discriminate.
    + destruct (choice_ok rand k cands) as (s & Es & Hs); [destruct cands; simpl in *; congruence|]. rewrite Es. cbn [bind].
      destruct (IH (chosen ++ [s]) (S k)) as (r & k' & E & Hr). rewrite E. exists r, k'. split; auto. intros ss Hss.
      destruct (Hr ss Hss) as (new & -> & HF & HN). exists (s :: new). rewrite <- app_assoc. simpl. split; auto. split.
      * constructor; auto. exists nd. split; auto. apply (unused_In chosen). exact Hs.
      * intros Hc Hn. rewrite <- app_assoc in HN. simpl in HN. apply HN; auto. apply NoDup_snoc; auto.
        apply (unused_new chosen (n_cands nd)); auto. apply Hc. eapply nth_error_In; eauto.
Qed.

Lemma pick_length rand nodes ids chosen k r k' : pick_splits rand nodes ids chosen k = Ok (r, k') -> k' <= k + length ids.
Proof.
  revert chosen k. induction ids as [|id ids IH]; intros chosen k; cbn [pick_splits].
  - intros E. injection E as _ <-. lia.
  - destruct (getitem nodes id) as [nd|]; cbn [bind]; [|discriminate]. set (cands := fold_left _ chosen (n_cands nd)).
    destruct (length cands =? 0); [intros E; injection E as _ <-; lia|]. unfold choice. destruct (length cands =? 0); cbn [bind]; [discriminate|].
    destruct (getitem cands (rand k mod length cands)); cbn [bind]; [|discriminate]. intros E. apply IH in E. simpl. lia.
Qed.

(** * Choosing the target *)

Definition got (counts : list (nat * nat)) (t : nat) : nat := match assoc Nat.eqb counts t with Some c => c | None => 0 end.
Lemma assoc_set_get {A} (d : list (nat * A)) k a k' :
  assoc Nat.eqb (assoc_set Nat.eqb d k a) k' = if k' =? k then Some a else assoc Nat.eqb d k'.
Proof.
  induction d as [|[k1 a1] d IH]; cbn [assoc_set assoc].
  - rewrite Nat.eqb_sym. reflexivity.
  - destruct (Nat.eqb_spec k1 k) as [->|Hne]; cbn [assoc].
    + rewrite Nat.eqb_sym. destruct (k' =? k); reflexivity.
    + rewrite IH. destruct (Nat.eqb_spec k1 k') as [->|]; [|reflexivity]. destruct (Nat.eqb_spec k' k); [contradiction|reflexivity].
Qed.

Section Target.
Variables (n : nat) (y : list nat) (rows : option (list row)).
Hypothesis Hy : length y = n.
Hypothesis Hrows : match rows with None => True | Some l => length l = n end.

(** The weight a row counts with, and the weight it adds to class [t]. *)
Definition wt_of (r : nat) : option nat :=
  match rows with
  | None => Some 1
  | Some l => match nth_error l r with Some dr => if r_gone_sp dr then None else Some (r_weight dr) | None => None end
  end.
Definition adds (t r : nat) : nat := match wt_of r with Some w => if nth r y 0 =? t then w else 0 | None => 0 end.
Lemma weigh_ok r : r < n -> weigh rows r = Ok (wt_of r).
Proof.
  intros H. unfold weigh, wt_of. destruct rows as [l|]; auto.
  destruct (nth_error l r) as [dr|] eqn:E; [|apply nth_error_None in E; lia]. rewrite (getitem_nth _ _ _ E). reflexivity.
Qed.

Definition best_inv (counts : list (nat * nat)) (best : Z * nat) : Prop :=
  (forall t, got counts t <= snd best) /\
  ((exists t, fst best = Z.of_nat t /\ snd best = got counts t /\ 0 < snd best) \/ best = ((-1)%Z, 0)).

Lemma count_loop rs : Forall (fun r => r < n) rs -> forall flags counts best, length flags = n -> best_inv counts best ->
  exists flags' counts' best', for_each rs (count_row y rows) (flags, counts, best) = Ok (flags', counts', best') /\
    length flags' = n /\ (forall r, nth_error flags' r = Some true <-> nth_error flags r = Some true \/ In r rs) /\
    (forall t, got counts' t = got counts t + nsum (adds t) rs) /\ best_inv counts' best'.
Proof.
  clear - Hy Hrows.
  induction 1 as [|r rs Hr Hrs IH]; intros flags counts best Hf Hb.
  - exists flags, counts, best. split; [reflexivity|]. split; auto. split; [simpl; tauto|]. split; [|auto]. intros t. simpl. lia.
  - cbn [for_each]. unfold count_row at 1. unfold setitem. assert (E : (r <? length flags) = true) by (apply Nat.ltb_lt; lia). rewrite E. cbn [bind].
    rewrite (weigh_ok r Hr). cbn [bind].
    assert (Hf1 : length (set_nth flags r true) = n) by (rewrite length_set_nth; auto).
    assert (Hfl : forall r', nth_error (set_nth flags r true) r' = Some true <-> nth_error flags r' = Some true \/ r = r').
    { intros r'. rewrite nth_error_set_nth, E, andb_true_r. destruct (Nat.eqb_spec r' r); split; intros H; auto. destruct H as [H|H]; auto. congruence. }
    destruct (wt_of r) as [w|] eqn:Ew.
    + destruct (nth_error y r) as [t|] eqn:Et; [|apply nth_error_None in Et; lia]. rewrite (getitem_nth _ _ _ Et). cbn [bind].
      set (c := match assoc Nat.eqb counts t with Some c => c + w | None => w end).
      assert (Ec : c = got counts t + w) by (unfold c, got; destruct (assoc Nat.eqb counts t); lia).
      assert (Hget : forall t', got (assoc_set Nat.eqb counts t c) t' = got counts t' + adds t' r).
      { intros t'. unfold got at 1. rewrite assoc_set_get. unfold adds. rewrite Ew, (nth_error_nth _ _ _ Et).
        rewrite (Nat.eqb_sym t' t). destruct (Nat.eqb_spec t t'); [subst; auto|]. fold (got counts t'). lia. }
      destruct (IH (set_nth flags r true) (assoc_set Nat.eqb counts t c) (if snd best <? c then (Z.of_nat t, c) else best)) as (f' & c' & b' & E1 & H1 & H2 & H3 & H4); auto.
      * destruct Hb as [B1 B2]. assert (At : adds t r = w) by (unfold adds; rewrite Ew, (nth_error_nth _ _ _ Et), Nat.eqb_refl; reflexivity).
        assert (Ao : forall t', t' <> t -> adds t' r = 0).
        { intros t' Ht'. unfold adds. rewrite Ew, (nth_error_nth _ _ _ Et). destruct (Nat.eqb_spec t t'); congruence. }
        destruct (Nat.ltb_spec (snd best) c) as [Hlt|Hge].
        -- split; cbn [fst snd].
           ++ intros t'. rewrite Hget. destruct (Nat.eq_dec t' t) as [->|Hne]; [lia|]. rewrite Ao by auto. specialize (B1 t'). lia.
           ++ left. exists t. rewrite Hget, At. lia.
        -- split.
           ++ intros t'. rewrite Hget. destruct (Nat.eq_dec t' t) as [->|Hne]; [lia|]. rewrite Ao by auto. specialize (B1 t'). lia.
           ++ destruct B2 as [(t0 & E1 & E2 & E3)|E0]; [|auto]. left. exists t0. split; auto. rewrite Hget.
              destruct (Nat.eq_dec t0 t) as [->|Hne]; [lia|]. rewrite Ao by auto. lia.
      * exists f', c', b'. split; auto. split; auto. split; [|split; auto].
        -- intros r'. rewrite H2, Hfl. simpl. tauto.
        -- intros t'. rewrite H3, Hget. unfold nsum. cbn [fold_right]. lia.
    + destruct (IH (set_nth flags r true) counts best) as (f' & c' & b' & E1 & H1 & H2 & H3 & H4); auto.
      exists f', c', b'. split; auto. split; auto. split; [|split; auto].
      * intros r'. rewrite H2, Hfl. simpl. tauto.
      * intros t'. rewrite H3. unfold nsum. cbn [fold_right]. unfold adds at 2. rewrite Ew. lia.
Qed.

Lemma choose_target_ok rs : Forall (fun r => r < n) rs ->
  exists flags best, choose_target n y rows rs = Ok (flags, best) /\ length flags = n /\
    (forall r, nth_error flags r = Some true <-> In r rs) /\
    (forall t, nsum (adds t) rs <= snd best) /\
    ((exists t, fst best = Z.of_nat t /\ snd best = nsum (adds t) rs /\ 0 < snd best) \/ best = ((-1)%Z, 0)).
Proof.
  clear - Hy Hrows. intros H. unfold choose_target.
  destruct (count_loop rs H (repeat false n) [] ((-1)%Z, 0)) as (f & c & b & E & H1 & H2 & H3 & H4 & H5).
  { apply repeat_length. } { split; [unfold got; simpl; lia|auto]. }
  rewrite E. cbn [bind]. exists f, b. split; auto. split; auto. split; [|split].
  - intros r. rewrite H2. split; [|auto]. intros [Hr|Hr]; auto. apply nth_error_In, repeat_spec in Hr. discriminate.
  - intros t. rewrite <- (H4 t) at 1. rewrite H3. unfold got; simpl. lia.
  - destruct H5 as [(t & E1 & E2 & E3)|E0]; [left|right; auto]. exists t. split; auto. rewrite E2, H3. unfold got; simpl. split; [lia|].
    rewrite E2, H3 in E3. unfold got in E3; simpl in E3. lia.
Qed.
End Target.

(** * Class weights *)

Lemma class_weight_of u p t rs : valid_setup u -> valid_data u -> NoDup rs ->
  (forall r, In r rs <-> covers (su_X u) (su_leaves u) (su_splits u) (KRow r) p) ->
  class_weight u p t (nsum (adds (su_y u) (su_rows u) t) rs).
Proof.
  intros (_ & _ & Hu) (Hy & _) Hn Hi.
  exists (filter (fun r => (nth r (su_y u) 0 =? t) && match wt_of (su_rows u) r with Some _ => true | None => false end) rs).
  split; [apply NoDup_filter; auto|]. 
  assert (Hr : forall r, In r rs -> r < length (su_X u)).
  { intros r Hin. apply Hi in Hin. destruct Hin as (x & lf & Hx & _). apply nth_error_Some. congruence. }
  split.
  - clear Hi Hn. induction rs as [|r rs IH]; auto. cbn [filter]. unfold nsum at 1. cbn [fold_right]. fold (nsum (adds (su_y u) (su_rows u) t) rs).
    rewrite IH by (intros; apply Hr; simpl; auto). unfold adds at 1. unfold wt_of in *.
    specialize (Hr r (or_introl eq_refl)).
    destruct (nth r (su_y u) 0 =? t); cbn [andb].
    + destruct (su_rows u) as [l|] eqn:El.
      * destruct (nth_error l r) as [dr|] eqn:Ed; [|apply nth_error_None in Ed; simpl in Hu; lia].
        destruct (r_gone_sp dr) eqn:Eg; [reflexivity|]. cbn [nsum fold_right]. unfold row_weight at 2. rewrite El, Ed. reflexivity.
      * cbn [nsum fold_right]. unfold row_weight at 2. rewrite El. reflexivity.
    + destruct (su_rows u) as [l|]; [destruct (nth_error l r) as [dr|]; [destruct (r_gone_sp dr)|]|]; reflexivity.
  - intros r. rewrite filter_In, andb_true_iff, Nat.eqb_eq, Hi. split.
    + intros (Hc & Ht & Hw). pose proof (Hr r (proj2 (Hi r) Hc)) as Hlt. split; [|split; auto].
      * rewrite <- Ht. apply nth_error_nth'. lia.
      * unfold active, wt_of in *. destruct (su_rows u) as [l|]; auto. destruct (nth_error l r) as [dr|]; [|discriminate].
        exists dr. split; auto. destruct (r_gone_sp dr); [discriminate|reflexivity].
    + intros (Ht & Ha & Hc). split; auto. split; [apply nth_error_nth; auto|]. unfold active, wt_of in *. destruct (su_rows u) as [l|]; auto.
      destruct Ha as (dr & -> & ->). reflexivity.
Qed.

Lemma class_weight_unique u p t v v' : class_weight u p t v -> class_weight u p t v' -> v = v'.
Proof.
  intros (rs & N & -> & I) (rs' & N' & -> & I'). apply nsum_perm, NoDup_Permutation; auto. intros r. rewrite I, I'. reflexivity.
Qed.

(** * Reduced costs *)

Lemma for_each_sub {A} (l : list A) (body : A -> Q -> res Q) (f : A -> Q) :
  (forall a acc, In a l -> exists v, body a acc = Ok v /\ (v == acc - f a)%Q) ->
  forall acc, exists v, for_each l body acc = Ok v /\ (v == acc - qsum f l)%Q.
Proof.
  induction l as [|a l IH]; intros H acc.
  - exists acc. split; auto. cbn. lra.
  - destruct (H a acc) as (v & E & Ev); [simpl; auto|]. cbn [for_each]. rewrite E. cbn [bind].
    destruct (IH (fun b acc Hb => H b acc (or_intror Hb)) v) as (v' & E' & Ev'). exists v'. split; auto. rewrite Ev', Ev, qsum_cons. lra.
Qed.

Lemma choices_split p : length (p_nodes p) = length (p_splits p) ->
  Forall2 (fun i nk => nth_error (p_nodes p) i = Some (fst nk) /\ nth_error (p_splits p) i = Some (snd nk)) (seq 0 (length (p_nodes p))) (choices p).
Proof.
  intros H. unfold choices.
  assert (G : forall (ns ks : list nat) o, length ns = length ks ->
    Forall2 (fun i nk => nth_error ns (i - o) = Some (fst nk) /\ nth_error ks (i - o) = Some (snd nk)) (seq o (length ns)) (combine ns ks)).
  { induction ns as [|n ns IH]; intros [|k ks] o Hl; try discriminate; cbn [length seq combine]; constructor.
    - rewrite Nat.sub_diag. auto.
    - specialize (IH ks (S o) ltac:(simpl in Hl; lia)). clear - IH.
      assert (Hge : Forall (fun i => S o <= i) (seq (S o) (length ns))) by (apply Forall_forall; intros i Hi; apply in_seq in Hi; lia).
      revert Hge. generalize (combine ns ks), IH. generalize (seq (S o) (length ns)). clear.
      intros s c HF. induction HF as [|i nk s c [H1 H2] HF IH]; constructor; inversion Hge; subst; auto.
      replace (i - o) with (S (i - S o)) by lia. auto. }
  specialize (G (p_nodes p) (p_splits p) 0 H). clear - G. induction G as [|i nk s c [H1 H2] G IH]; constructor; auto.
  rewrite Nat.sub_0_r in H1, H2. auto.
Qed.

Lemma qsum_Forall2 {A B} (R : A -> B -> Prop) (f : A -> Q) (g : B -> Q) l m : Forall2 R l m -> (forall a b, R a b -> (f a == g b)%Q) ->
  (qsum f l == qsum g m)%Q.
Proof. intros HF H. induction HF; [reflexivity|]. rewrite !qsum_cons, IHHF, (H _ _ H0). reflexivity. Qed.

Section Heur.
Variables (u : setup) (kinds : list ckind) (cuts : list (list bool)) (s : tmaster) (pos : list nat) (pi : nat -> Q) (dl : tduals).
Hypothesis V : valid_setup u.
Hypothesis D : valid_data u.
Hypothesis H : uinv u kinds cuts s.
Hypothesis R : reports (2 ^ su_depth u) (length (su_X u)) kinds cuts pos pi dl.

Lemma tree_plain p : tree_path (su_depth u) (su_splits u) p -> plain_path (su_depth u) (su_splits u) p.
Proof.
  intros Hp. destruct (tree_path_lengths _ _ _ Hp) as [H1 H2]. destruct Hp as (Hl & _ & _ & Hr). repeat split; auto.
Qed.

Lemma rows_sat p : plain_path (su_depth u) (su_splits u) p ->
  exists l, get_satisfied_rows p (create_leaf (p_leaf p) (su_depth u)) (tm_splits s) = Ok l /\ NoDup l /\
    forall r, In r l <-> covers (su_X u) (su_leaves u) (su_splits u) (KRow r) p.
Proof.
  intros Hp. pose proof V as (wf & _). pose proof (core_length _ _ _ _ _ _ _ H) as Hcl. pose proof (wt_depth _ _ _ _ wf) as Hd.
  pose proof (ti_splits _ _ _ _ _ _ _ H) as Hs. destruct Hp as (Hl & Hn & Hk & Hr).
  destruct (satisfied_rows_spec (su_X u) (tm_splits s) p (create_leaf (p_leaf p) (su_depth u))) as (l & E & N & I); try lia.
  { apply (core_recorded _ _ _ _ wf). auto. } { rewrite Hcl. auto. }
  exists l. split; auto. split.
  - apply N. intros sp Hsp. destruct (Forall2_In_l _ _ _ _ Hs Hsp) as (t & Ht & _ & _ & _ & E4 & E5). rewrite E4, E5.
    destruct D as [_ Dn]. rewrite Forall_forall in Dn. auto.
  - intros r. rewrite I. cbn [covers]. unfold su_leaves. rewrite (complete_leaves_nth _ _ Hl). split.
    + intros (x & Hx & Hf). exists x, (create_leaf (p_leaf p) (su_depth u)). split; auto. split; auto.
      intros n k Hc. rewrite <- (same_core_left _ _ x k Hs). apply Hf. auto.
    + intros (x & lf & Hx & El & Hf). injection El as <-. exists x. split; auto.
      intros n k Hc. rewrite (same_core_left _ _ x k Hs). apply Hf. auto.
Qed.

Lemma cuts_sat p : plain_path (su_depth u) (su_splits u) p ->
  exists l, get_satisfied_cuts p (create_leaf (p_leaf p) (su_depth u)) (tm_splits s) = Ok l /\ NoDup l /\
    forall c, In c l <-> exists z, nth_error cuts c = Some z /\ covers (su_X u) (su_leaves u) (su_splits u) (KCut z) p.
Proof.
  intros Hp. pose proof V as (wf & _).
  destruct (satisfied_cuts_ok _ _ _ _ wf _ _ _ _ H Hp) as (l & E & I). exists l. split; auto. split.
  - pose proof (core_length _ _ _ _ _ _ _ H) as Hcl. pose proof (wt_depth _ _ _ _ wf) as Hd. destruct Hp as (Hl & Hn & Hk & Hr).
    destruct (get_satisfied_ok s_lcuts s_rcuts p (create_leaf (p_leaf p) (su_depth u)) (tm_splits s)) as (l' & E' & N & _); try lia.
    { rewrite Hcl. exact Hr. }
    unfold get_satisfied_cuts in E. rewrite E in E'. injection E' as <-. apply N. intros sp Hsp. apply In_nth_error in Hsp. destruct Hsp as [k Hk'].
    apply (ti_sides _ _ _ _ _ _ _ H k sp Hk').
  - intros c. rewrite I. split; intros (z & Hz & Hc); exists z; (split; [auto|]); apply covb_iff; auto.
Qed.

Lemma reduced_ok p flags : tree_path (su_depth u) (su_splits u) p -> uses_candidates (su_nodes u) p -> length flags = length (su_X u) ->
  (forall r, nth_error flags r = Some true <-> covers (su_X u) (su_leaves u) (su_splits u) (KRow r) p) ->
  exists v, get_reduced_cost (length (su_X u)) (su_leaves u) (tm_splits s) dl p flags = Ok v /\ reported_price u cuts dl p v.
Proof.
  intros Hp Hc Hf Hcov. pose proof (tree_plain p Hp) as Hpl. pose proof Hp as (Hl & _). unfold get_reduced_cost.
  pose proof (after_formulated u cuts s kinds V H) as F.
  destruct (nth_error (d_leaf dl) (p_leaf p)) as [ql|] eqn:Eql.
  2:{ apply nth_error_None in Eql. rewrite (rp_leaves _ _ _ _ _ _ _ R) in Eql. lia. }
  match goal with |- exists v, (let* rc1 := for_each ?l ?b ?a in _) = _ /\ _ =>
    destruct (for_each_sub l b (fun r => match nth_error flags r with Some true => nth r (d_row dl) 0 | _ => 0 end)%Q) with (acc := a) as (v1 & E1 & H1) end.
  { intros r acc Hr. apply in_seq in Hr. destruct (nth_error flags r) as [f|] eqn:Ef; [|apply nth_error_None in Ef; lia].
    rewrite (getitem_nth _ _ _ Ef). cbn [bind]. destruct f.
    - destruct (nth_error (d_row dl) r) as [q|] eqn:Eq; [|apply nth_error_None in Eq; rewrite (rp_rows _ _ _ _ _ _ _ R) in Eq; lia].
      rewrite (getitem_nth _ _ _ Eq). cbn [bind]. eexists. split; [reflexivity|]. rewrite (nth_error_nth _ _ _ Eq). reflexivity.
    - eexists. split; [reflexivity|]. lra. }
  rewrite E1. cbn [bind]. unfold su_leaves at 1. rewrite (getitem_nth _ _ _ (complete_leaves_nth _ _ Hl)). cbn [bind].
  destruct (cuts_sat p Hpl) as (cs & Ecs & Ncs & Ics). rewrite Ecs. cbn [bind].
  match goal with |- exists v, (let* rc1 := for_each ?l ?b ?a in _) = _ /\ _ =>
    destruct (for_each_sub l b (fun c => nth c (d_cut dl) 0)%Q) with (acc := a) as (v2 & E2 & H2) end.
  { intros c acc Hin. apply Ics in Hin. destruct Hin as (z & Hz & _).
    assert (Hlt : c < length (d_cut dl)).
    { rewrite (rp_cuts _ _ _ _ _ _ _ R), map_length. destruct (rp_pos _ _ _ _ _ _ _ R) as [_ Fp].
      rewrite (Forall2_length' _ _ _ Fp). apply nth_error_Some. congruence. }
    destruct (nth_error (d_cut dl) c) as [q|] eqn:Eq; [|apply nth_error_None in Eq; lia].
    rewrite (getitem_nth _ _ _ Eq). cbn [bind]. eexists. split; [reflexivity|]. rewrite (nth_error_nth _ _ _ Eq). reflexivity. }
  rewrite E2. cbn [bind].
  destruct (tree_path_lengths _ _ _ Hp) as [L1 L2].
  pose proof (choices_split p ltac:(congruence)) as Hsp.
  assert (Hstep : forall i nk, In nk (choices p) -> nth_error (p_nodes p) i = Some (fst nk) /\ nth_error (p_splits p) i = Some (snd nk) ->
    forall acc, (let* n := getitem (p_nodes p) i in let* k := getitem (p_splits p) i in
                 let* q := lookup key3_eqb (d_ns dl) (p_leaf p, n, k) in Ok (acc - q)%Q) = Ok (acc - choice_dual dl (p_leaf p) nk)%Q).
  { intros i nk Hin [En Ek] acc. rewrite (getitem_nth _ _ _ En), (getitem_nth _ _ _ Ek). cbn [bind]. unfold lookup, choice_dual.
    destruct (choice_reported u _ _ _ _ _ _ _ _ F R p nk Hp Hc Hin) as (ii & _ & ->). reflexivity. }
  match goal with |- exists v, for_each ?l ?b ?a = _ /\ _ =>
    destruct (for_each_sub l b (fun i => match nth_error (p_nodes p) i, nth_error (p_splits p) i with
                                         | Some n, Some k => choice_dual dl (p_leaf p) (n, k) | _, _ => 0 end)%Q) with (acc := a) as (v3 & E3 & H3) end.
  { intros i acc Hin. destruct (Forall2_In_l _ _ _ _ Hsp Hin) as ([n k] & Hnk & Hb). cbn [fst snd] in Hb.
    rewrite (Hstep i (n, k) Hnk Hb). destruct Hb as [-> ->]. eexists. split; [reflexivity|]. reflexivity. }
  exists v3. split; [exact E3|].
  exists (filter (fun r => match nth_error flags r with Some true => true | _ => false end) (seq 0 (length (su_X u)))), cs.
  split; [apply NoDup_filter, seq_NoDup|]. split; [|split; [auto|split; [auto|]]].
  - intros r. rewrite <- Hcov, filter_In, in_seq. split.
    + intros [_ E]. destruct (nth_error flags r) as [[]|]; congruence.
    + intros E. rewrite E. split; auto. assert (r < length flags) by (apply nth_error_Some; congruence). lia.
  - rewrite H3, H2, H1, (nth_error_nth _ _ _ Eql).
    rewrite (qsum_Forall2 _ _ (choice_dual dl (p_leaf p)) _ _ Hsp) by (intros i [n k] [-> ->]; reflexivity).
    rewrite qsum_filter.
    rewrite (qsum_ext (fun r => match nth_error flags r with Some true => nth r (d_row dl) 0 | _ => 0 end)%Q
      (fun a => if match nth_error flags a with Some true => true | _ => false end then nth a (d_row dl) 0 else 0)%Q)
      by (intros r _; destruct (nth_error flags r) as [[]|]; reflexivity). lra.
Qed.

(** * The loop *)

Variables (rand : nat -> nat) (order : list nat -> list nat).
Hypothesis Hord : forall l, Permutation (order l) l.

Let n_rows := length (su_X u).
(** Target and cost are those computed from the satisfied rows. *)
Definition made (q : path) : Prop := exists sat flags count,
  get_satisfied_rows (mkPath (p_leaf q) (p_nodes q) (p_splits q) 0 0 (-1) false) (create_leaf (p_leaf q) (su_depth u)) (tm_splits s) = Ok sat /\
  choose_target n_rows (su_y u) (su_rows u) (order sat) = Ok (flags, (p_target q, count)) /\ p_cost q = inject_Z (Z.of_nat count).
Definition key (p : path) := (p_leaf p, p_splits p).

Lemma covers_same c p q : p_leaf p = p_leaf q -> p_nodes p = p_nodes q -> p_splits p = p_splits q ->
  (covers (su_X u) (su_leaves u) (su_splits u) c p <-> covers (su_X u) (su_leaves u) (su_splits u) c q).
Proof. intros E1 E2 E3. destruct c; cbn [covers]; unfold follows, choices; rewrite ?E1, ?E2, ?E3; reflexivity. Qed.

Lemma same_any_ok p qs : length (p_nodes p) = length (p_splits p) -> Forall (fun q => length (p_nodes q) = length (p_splits q)) qs ->
  exists b, same_as_any p qs = Ok b /\
    (b = true <-> exists q, In q qs /\ p_leaf p = p_leaf q /\ p_target p = p_target q /\ (p_cost p == p_cost q)%Q /\
                  length (p_nodes p) = length (p_nodes q) /\ incl (choices p) (choices q)).
Proof.
  intros Hp. induction 1 as [|q qs Hq Hqs IH]; cbn [same_as_any].
  - exists false. split; auto. split; [discriminate|]. intros (q & [] & _).
  - destruct (is_same_as_ok p q Hp Hq) as (b & -> & Hb). cbn [bind]. destruct b.
    + exists true. split; auto. split; auto. intros _. exists q. split; [simpl; auto|]. apply Hb. auto.
    + destruct IH as (b & -> & Hb'). exists b. split; auto. rewrite Hb'. split; intros (q' & Hin & Hs).
      * exists q'. split; [simpl; auto|auto].
      * destruct Hin as [<-|Hin]; [apply Hb in Hs; discriminate|eauto].
Qed.

Definition good_state (g : list path) : Prop := Forall (fun q => offered u cuts dl q /\ made q) g /\ NoDup (map key g).

Lemma tree_of_offer l ss cost id t b : l < 2 ^ su_depth u ->
  let p := mkPath l (l_left (create_leaf l (su_depth u)) ++ l_right (create_leaf l (su_depth u))) ss cost id t b in
  Forall2 (candidate (tm_nodes s)) (p_nodes p) ss -> tree_path (su_depth u) (su_splits u) p /\ uses_candidates (su_nodes u) p.
Proof.
  intros Hl p HF. pose proof V as (wf & _). pose proof (ti_nodes _ _ _ _ _ _ _ H) as Hn.
  assert (Hc : forall n k, candidate (tm_nodes s) n k -> exists nd, nth_error (su_nodes u) n = Some nd /\ In k (n_cands nd)).
  { intros n k (nd & En & Hk). destruct (Forall2_nth_l _ _ _ _ _ Hn En) as (nd' & En' & _ & Ec). exists nd'. rewrite <- Ec. auto. }
  split.
  - split; [exact Hl|]. split; [reflexivity|]. split.
    + cbn. rewrite <- (Forall2_length' _ _ _ HF). cbn. apply create_leaf_length. auto.
    + apply Forall_forall. intros k Hk. destruct (Forall2_In_r _ _ _ _ HF Hk) as (n & _ & Hnk). destruct (Hc n k Hnk) as (nd & En & Hin).
      apply nth_error_In in En. destruct (wt_cands _ _ _ _ wf nd En) as [_ Hr]. rewrite Forall_forall in Hr. auto.
  - intros n k Hin. apply Hc. unfold choices in Hin. cbn [p_nodes p_splits p] in Hin. clear - HF Hin. cbn [p_nodes p] in HF.
    induction HF; [destruct Hin|]. destruct Hin as [E|Hin]; [injection E as <- <-; auto|auto].
Qed.

Lemma round_ok g failed k : good_state g ->
  exists g' failed' k', heur_round rand order n_rows (su_y u) (su_rows u) (su_leaves u) (tm_nodes s) (tm_splits s) dl (g, failed, k) =
      Ok (g', failed', k') /\ good_state g' /\ length g' + failed' = S (length g + failed) /\ length g <= length g' /\ failed <= failed'.
Proof.
  intros [G1 G2]. pose proof V as (wf & _ & Hu). unfold heur_round.
  pose proof (ti_nodes _ _ _ _ _ _ _ H) as Hnodes.
  destruct (choice_ok rand k (su_leaves u)) as (lf & E1 & Hlf).
  { intros E. apply (f_equal (@length leaf)) in E. unfold su_leaves in E. rewrite complete_leaves_length in E. simpl in E.
    pose proof (Nat.pow_nonzero 2 (su_depth u)). lia. }
  rewrite E1. cbn [bind]. apply In_nth_error in Hlf. destruct Hlf as [l Hlf].
  assert (Hl : l < 2 ^ su_depth u).
  { rewrite <- complete_leaves_length. apply nth_error_Some. unfold su_leaves in Hlf. congruence. }
  unfold su_leaves in Hlf. rewrite (complete_leaves_nth _ _ Hl) in Hlf. injection Hlf as <-.
  rewrite (create_leaf_id _ _ Hl). set (lf := create_leaf l (su_depth u)) in *. set (ids := l_left lf ++ l_right lf).
  destruct (create_leaf_nodes l (su_depth u) Hl) as [Nids Rids]. fold lf in Nids, Rids. fold ids in Nids, Rids.
  destruct (pick_ok rand (tm_nodes s) ids) with (chosen := @nil nat) (k := S k) as (r & k2 & E2 & Hr).
  { apply Forall_forall. intros n Hn. apply Rids in Hn. destruct (wt_nodes _ _ _ _ wf) as [Hlen _]. rewrite (Forall2_length' _ _ _ Hnodes). lia. }
  rewrite E2. cbn [bind]. destruct r as [ss|].
  2:{ exists g, (S failed), k2. split; auto. split; [split; auto|]. lia. }
  destruct (Hr ss eq_refl) as (ss' & E & HF & HN). simpl in E. subst ss'.
  assert (Nss : NoDup ss).
  { apply HN; [|constructor]. intros nd Hin. destruct (Forall2_In_l _ _ _ _ Hnodes Hin) as (nd' & Hin' & _ & ->). apply (wt_cands _ _ _ _ wf nd' Hin'). }
  destruct (tree_of_offer l ss 0%Q 0 (-1)%Z false Hl HF) as [T0 U0].
  destruct (rows_sat _ (tree_plain _ T0)) as (sat & Esat & Nsat & Isat). cbn [p_leaf] in Esat. fold lf in Esat. fold ids in Esat. rewrite Esat. cbn [bind].
  assert (Nord : NoDup (order sat)) by (eapply Permutation_NoDup; [apply Permutation_sym, Hord|auto]).
  assert (Iord : forall r, In r (order sat) <-> In r sat).
  { intros r. split; apply Permutation_in; [apply Hord|apply Permutation_sym, Hord]. }
  destruct (choose_target_ok n_rows (su_y u) (su_rows u) (proj1 D)) with (rs := order sat) as (flags & best & Et & Lf & If & Bmax & Bbest).
  { destruct (su_rows u); [apply Hu|exact I]. }
  { apply Forall_forall. intros r Hin. apply Iord, Isat in Hin. destruct Hin as (x & lf' & Hx & _). apply nth_error_Some. congruence. }
  rewrite Et. cbn [bind]. destruct best as [target count]. cbn [fst snd] in *.
  set (p := mkPath l ids ss (inject_Z (Z.of_nat count)) 0 target false).
  destruct (tree_of_offer l ss (inject_Z (Z.of_nat count)) 0 target false Hl HF) as [T U]. fold lf in T, U. fold ids in T, U. fold p in T, U.
  assert (Lss : length ss = length ids) by (symmetry; apply (Forall2_length' _ _ _ HF)).
  assert (Cov : forall r, In r (order sat) <-> covers (su_X u) (su_leaves u) (su_splits u) (KRow r) p).
  { intros r. rewrite Iord, Isat. apply covers_same; reflexivity. }
  assert (M : made p) by (exists sat, flags, count; auto).
  destruct (same_any_ok p g) as (b & Eb & Hb).
  { cbn. auto. } { eapply Forall_impl; [|exact G1]. intros q [Hq _]. symmetry. apply (of_length _ _ _ _ Hq). }
  rewrite Eb. cbn [bind]. destruct b.
  { exists g, (S failed), k2. split; auto. split; [split; auto|]. lia. }
  destruct (reduced_ok p flags T U Lf) as (v & Ev & Hv).
  { intros r. rewrite If. apply Cov. }
  unfold n_rows. rewrite Ev. cbn [bind]. destruct (Qltb teps v) eqn:Ec.
  2:{ exists g, (S failed), k2. split; auto. split; [split; auto|]. lia. }
  exists (g ++ [p]), failed, k2. split; auto. rewrite app_length. split; [|simpl; lia]. split.
  - apply Forall_app. split; auto. constructor; auto. split; auto. split; auto.
    + split.
      * intros t w Hw. rewrite (class_weight_unique _ _ _ _ _ Hw (class_weight_of u p t (order sat) V D Nord Cov)).
        cbn [p_cost p]. rewrite <- Zle_Qle. apply inj_le. apply Bmax.
      * destruct Bbest as [(t & E & E' & Hpos)|E].
        -- left. exists t, count. split; auto. split; [rewrite E'; apply (class_weight_of u p t (order sat)); auto|]. split; [reflexivity|auto].
        -- right. injection E as -> ->. split; reflexivity.
    + exists v. split; auto. apply Qltb_true. auto.
  - rewrite map_app. cbn [map]. apply NoDup_snoc; auto. intros Hin. apply in_map_iff in Hin. destruct Hin as (q & Ek & Hq).
    enough (false = true) by discriminate. apply Hb. exists q. rewrite Forall_forall in G1. destruct (G1 q Hq) as [Oq (sat' & flags' & count' & Es & Et' & Ecost)].
    unfold key in Ek. injection Ek as El Esp. pose proof (of_nodes _ _ _ _ Oq) as En. rewrite El in En. fold lf in En. fold ids in En.
    rewrite En, El, Esp in Es. change (get_satisfied_rows (mkPath l ids ss 0 0 (-1) false) lf (tm_splits s) = Ok sat') in Es.
    rewrite Esat in Es. injection Es as <-. rewrite Et in Et'. injection Et' as Ef Ett Ecc.
    split; auto. cbn [p_leaf p_target p_cost p_nodes p]. split; auto. split; auto. split; [rewrite Ecost, Ecc; reflexivity|]. split; [rewrite En; reflexivity|].
    unfold choices. cbn [p_nodes p_splits p]. rewrite En, Esp. apply incl_refl.
Qed.

Lemma rounds_ok m : forall g failed k, good_state g ->
  exists g' failed' k', heur_rounds m (heur_round rand order n_rows (su_y u) (su_rows u) (su_leaves u) (tm_nodes s) (tm_splits s) dl) (g, failed, k) =
      Ok (g', failed', k') /\ good_state g' /\ length g' + failed' = m + (length g + failed) /\ length g <= length g' /\ failed <= failed'.
Proof.
  induction m as [|m IH]; intros g failed k G; cbn [heur_rounds].
  - exists g, failed, k. split; auto.
  - destruct (round_ok g failed k G) as (g1 & f1 & k1 & E & G1 & L1 & L2 & L0). rewrite E. cbn [bind].
    destruct (IH g1 f1 k1 G1) as (g2 & f2 & k2 & E2 & G2 & L3 & L4 & L5). exists g2, f2, k2. split; auto. split; auto.
    lia.
Qed.

Lemma generate_ok h : exists ps h', heur_generate rand order n_rows (su_y u) (su_rows u) (su_leaves u) (tm_nodes s) (tm_splits s) dl h = Ok (ps, h') /\
  length ps <= 100 /\ Forall (offered u cuts dl) ps /\ NoDup (map key ps) /\ h_cuts h' = h_cuts h /\
  h_success h' = h_success h + length ps /\ h_failed h' = h_failed h + (100 - length ps).
Proof.
  unfold heur_generate. destruct (rounds_ok 100 [] (h_failed h) 0) as (g & f & k & E & [G1 G2] & L1 & L2 & L3).
  { split; constructor. }
  rewrite E. cbn [bind]. exists g, (mkHeur (h_cuts h) f (h_success h + length g)). split; auto. cbn [length] in *. split; [lia|]. split.
  - eapply Forall_impl; [|exact G1]. intros q [Hq _]. exact Hq.
  - split; auto. cbn [h_cuts h_success h_failed]. split; auto. split; auto. lia.
Qed.
End Heur.

(** * Cuts arrive under the same numbers *)

Lemma store_again u kinds cuts s k z : valid_setup u -> uinv u kinds cuts s -> nth_error cuts k = Some z -> store_cut k z (tm_splits s) = Ok (tm_splits s).
Proof.
  intros V H Hz. pose proof V as (wf & _). pose proof (ti_splits _ _ _ _ _ _ _ H) as Hs. unfold store_cut.
  assert (Hzl : length z = length (su_splits u)).
  { pose proof (ti_zs _ _ _ _ _ _ _ H) as Hf. rewrite Forall_forall in Hf. apply Hf. eapply nth_error_In; eauto. }
  assert (G : forall l, (forall sp, In sp l -> exists i, nth_error (tm_splits s) i = Some sp) ->
    map_res (fun sp => let* b := getitem z (s_id sp) in
                     Ok (mkSplit (s_id sp) (s_feature sp) (s_threshold sp) (s_removed sp) (s_lrows sp) (s_rrows sp)
                           (if (b : bool) then set_add k (s_lcuts sp) else s_lcuts sp)
                           (if (b : bool) then s_rcuts sp else set_add k (s_rcuts sp)))) l = Ok l).
  { induction l as [|sp l IH]; intros Hl; [reflexivity|]. cbn [map_res]. destruct (Hl sp (or_introl eq_refl)) as [i Hi].
    destruct (Forall2_nth_l _ _ _ _ _ Hs Hi) as (t & Ht & Hid & _). pose proof (wt_ids _ _ _ _ wf i t Ht) as Hid'.
    assert (Hlt : i < length z) by (rewrite Hzl; apply nth_error_Some; congruence).
    rewrite Hid, Hid'. destruct (nth_error z i) as [b|] eqn:Eb; [|apply nth_error_None in Eb; lia]. rewrite (getitem_nth _ _ _ Eb). cbn [bind].
    rewrite IH by (intros; apply Hl; simpl; auto). cbn [bind].
    destruct (ti_sides _ _ _ _ _ _ _ H i sp Hi) as (HL & HR & _).
    assert (Ez : nth i z false = b) by (apply nth_error_nth; auto).
    assert (E : forall c l, In c l -> set_add c l = l) by (intros c m Hin; unfold set_add; apply memb_In in Hin; rewrite Hin; reflexivity).
    destruct b; rewrite E; [destruct sp; simpl in *; subst; reflexivity|apply HL; eauto|destruct sp; simpl in *; subst; reflexivity|apply HR; eauto]. }
  apply G. intros sp Hin. apply In_nth_error. auto.
Qed.

Lemma heur_update_ok u kinds old dl s h : valid_setup u -> uinv u kinds (old ++ d_new_cuts dl) s -> h_cuts h = length old ->
  heur_update dl h (tm_splits s) = Ok (mkHeur (length (old ++ d_new_cuts dl)) (h_failed h) (h_success h), tm_splits s).
Proof.
  intros V H Hh. unfold heur_update. rewrite Hh.
  assert (G : forall l, (forall kc, In kc l -> nth_error (old ++ d_new_cuts dl) (fst kc) = Some (snd kc)) ->
    for_each l (fun kc splits => store_cut (fst kc) (snd kc) splits) (tm_splits s) = Ok (tm_splits s)).
  { induction l as [|[k z] l IH]; intros Hl; [reflexivity|]. cbn [for_each fst snd].
    rewrite (store_again u kinds _ s k z V H (Hl (k, z) (or_introl eq_refl))). cbn [bind]. apply IH. intros; apply Hl; simpl; auto. }
  rewrite G; [cbn [bind]; rewrite app_length; reflexivity|].
  intros [k z] Hin. cbn [fst snd].
  assert (E : forall (new : list (list bool)) o k z, In (k, z) (combine (seq o (length new)) new) -> o <= k /\ nth_error new (k - o) = Some z).
  { clear. induction new as [|a new IH]; intros o k z Hin; [destruct Hin|]. cbn [length seq combine] in Hin. destruct Hin as [E|Hin].
    - injection E as <- <-. rewrite Nat.sub_diag. auto.
    - apply IH in Hin. destruct Hin as [H1 H2]. split; [lia|]. replace (k - o) with (S (k - S o)) by lia. exact H2. }
  apply E in Hin. destruct Hin as [H1 H2]. rewrite nth_error_app2 by lia. exact H2.
Qed.
