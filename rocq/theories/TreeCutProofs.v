(** Row cuts, generated cuts and LP solves keep the invariant of the tree master problem. *)
From Coq Require Import Qround.
From Verif Require Import Base Lp LpProofs TreeModel SpecTree TreeGeoProofs TreePathProofs TreeLpBuild TreeBuildProofs TreeGenProofs TreeInvProofs TreeOpProofs.
Open Scope nat_scope.

Lemma fold_ones c ids m : fold_left (fun m i => set_coef c i 1%Q m) ids m = ones (map (fun i => (c, i)) ids) m.
Proof. unfold ones. revert m. induction ids as [|i ids IH]; intros m; simpl; auto. Qed.

Lemma setitem_ok {A} (l : list A) i a : i < length l -> setitem l i a = Ok (set_nth l i a).
Proof. intros H. unfold setitem. apply Nat.ltb_lt in H. rewrite H. reflexivity. Qed.

Lemma NoDup_map_filter {A B} (f : A -> B) (g : A -> bool) l : NoDup (map f l) -> NoDup (map f (filter g l)).
Proof.
  induction l as [|a l IH]; simpl; intros H; [constructor|]. inversion H as [|? ? Hn Hd]; subst. destruct (g a); auto.
  simpl. constructor; auto. intros Hin. apply Hn. apply in_map_iff in Hin. destruct Hin as (b & <- & Hb).
  apply filter_In in Hb. apply in_map. apply Hb.
Qed.

Lemma combine_map_In {A B} (f : A -> B) l a b : In (a, b) (combine l (map f l)) <-> In a l /\ b = f a.
Proof.
  induction l as [|c l IH]; simpl; [intuition|]. rewrite IH. split.
  - intros [E|?]; [injection E as -> ->|]; intuition.
  - intros [[->|?] ->]; intuition.
Qed.

Lemma nth_error_ext {A} (l m : list A) : (forall i, nth_error l i = nth_error m i) -> l = m.
Proof.
  revert m. induction l as [|a l IH]; intros [|b m] H; auto; try (specialize (H 0); discriminate).
  pose proof (H 0) as H0. injection H0 as ->. f_equal. apply IH. intros i. apply (H (S i)).
Qed.

Section Cuts.
Variables (d : nat) (X : list sample) (nodes0 : list node) (splits0 : list split).
Hypothesis wf : wf_tree d X nodes0 splits0.
Notation leaves := (complete_leaves d).
Notation cov := (covb X (complete_leaves d) splits0).
Notation tinv := (tinv d X nodes0 splits0).
Notation rows_ok := (rows_ok d X splits0).

(** * Row cuts *)

Lemma row_con_step kinds zs s r rows dr : tinv kinds zs s -> tm_rows s = Some rows -> nth_error rows r = Some dr ->
  r_gone dr = false -> nth_error (tm_added s) r = Some false ->
  tinv (kinds ++ [KRow r]) zs
    (with_cons s (ones (map (fun i => (num_cons (tm_lp s), i)) (r_paths dr)) (snd (new_con None (Some 1%Q) (tm_lp s)))) (tm_splits s)
       (set_nth (tm_row_cons s) r (Some (num_cons (tm_lp s)))) (set_nth (tm_added s) r true) (tm_cut_cons s)).
Proof.
  intros H Hrows Hdr Hg Ha. set (l := map (fun i => (num_cons (tm_lp s), i)) (r_paths dr)).
  set (m1 := snd (new_con None (Some 1%Q) (tm_lp s))).
  pose proof (ti_rows _ _ _ _ _ _ _ H) as (rows' & E & [Hrl Hrp] & Hrg). assert (rows' = rows) by congruence. subst rows'. clear E.
  assert (Hr : r < length X) by (rewrite <- Hrl; apply nth_error_Some; congruence).
  destruct (Hrp r dr Hdr) as [Hnd Hin].
  assert (Hones : ones_rel l m1 (ones l m1)) by apply ones_rel_ones.
  assert (Hnew : ~ In (KRow r) kinds).
  { intros Hi. apply (ti_added _ _ _ _ _ _ _ H) in Hi; auto. congruence. }
  assert (Hlen : length kinds = num_cons (tm_lp s)) by (eapply lp_ok_kinds; apply (ti_lp _ _ _ _ _ _ _ H)).
  assert (Hlp : lp_ok cov (tm_paths s) (tm_ns_vars s) (kinds ++ [KRow r]) (ones l m1)).
  { refine (lp_ok_con cov (tm_paths s) (tm_ns_vars s) kinds (tm_lp s) _ (KRow r) l (ti_lp _ _ _ _ _ _ _ H) _ Hones _).
    - intros n k. reflexivity.
    - intros i j. unfold l. rewrite in_map_iff. fold (num_cons (tm_lp s)). split.
      + intros (v & E & Hv). injection E as <- <-. split; auto. apply Hin. auto.
      + intros [-> Hp]. exists j. split; auto. apply Hin. auto. }
  destruct H. split; cbn; auto.
  - rewrite <- ti_max. exact (or_max _ _ _ Hones).
  - exists rows. split; auto. split; [split; auto|]. intros r' Hr'. apply in_app_iff in Hr'. destruct Hr' as [Hr'|[E|[]]]; auto.
    injection E as <-. eauto.
  - apply links_other; auto. discriminate.
  - intros l'. rewrite in_app_iff, ti_leaf_in. simpl. intuition discriminate.
  - rewrite length_set_nth. auto.
  - rewrite <- Hlen. apply links_add; auto.
    + destruct (nth_error (tm_row_cons s) r) as [[c|]|] eqn:E; auto.
      * exfalso. apply ti_row in E. apply Hnew. eapply nth_error_In; eauto.
      * apply nth_error_None in E. lia.
    + congruence.
  - rewrite length_set_nth. auto.
  - intros r' Hr'. rewrite in_app_iff. simpl. destruct (Nat.eq_dec r' r) as [->|Hne].
    + rewrite nth_error_set_nth_same by lia. intuition.
    + rewrite nth_error_set_nth_other, ti_added by auto. intuition congruence.
  - apply klinks_other; auto. discriminate.
  - intros l' n k. rewrite in_app_iff, ti_ns_in. simpl. intuition discriminate.
  - intros n k. rewrite ti_ns_vars. split; intros (l' & Hi); exists l'; rewrite in_app_iff in *; simpl in *; intuition discriminate.
  - intros i c Hi. destruct (ti_cut i c Hi) as (z & Hz & Hk). exists z. split; auto. apply nth_error_snoc. auto.
  - intros c z Hc. apply nth_error_snoc in Hc. destruct Hc as [Hc|[_ E]]; [eauto|discriminate].
Qed.

Definition row_violated (values : list (nat * Q)) (rows : list row) (r : nat) (b : bool) : Prop :=
  exists dr, nth_error rows r = Some dr /\ r_gone dr = false /\ violated_row_constraint values (r_paths dr) = Ok b.

Lemma beta_loop_inv rows values zs : forall rs s kinds num num' m cs added,
  tinv kinds zs s -> tm_rows s = Some rows -> Forall (fun r => r < length X) rs ->
  beta_loop rows values rs (tm_lp s, tm_row_cons s, tm_added s) num = Ok (num', (m, cs, added)) ->
  exists new, tinv (kinds ++ map KRow new) zs (with_cons s m (tm_splits s) cs added (tm_cut_cons s)) /\ num' = num + length new /\
    (forall r, In r new -> In r rs /\ ~ In (KRow r) kinds /\ row_violated values rows r true) /\ NoDup new /\
    (num <= 10 -> num' <= 10) /\
    (num' < 10 -> forall r dr, In r rs -> nth_error rows r = Some dr -> r_gone dr = false -> ~ In (KRow r) (kinds ++ map KRow new) ->
       row_violated values rows r false).
Proof.
  induction rs as [|r rs IH]; intros s kinds num num' m cs added H Hrows Hrs E.
  - simpl in E. injection E as <- <- <- <-. exists []. simpl. rewrite app_nil_r. split; [|split; [|split; [|split; [|split]]]]; auto.
    + destruct s. exact H.
    + intros r [].
    + constructor.
    + intros _ r dr [].
  - inversion Hrs as [|? ? Hr Hrs']; subst. cbn [beta_loop] in E.
    pose proof (ti_rows _ _ _ _ _ _ _ H) as (rows' & E' & [Hrl Hrp] & Hrg). assert (rows' = rows) by congruence. subst rows'. clear E'.
    destruct (getitem_lt rows r) as [dr Edr]; [lia|]. rewrite Edr in E. cbn [bind] in E. apply getitem_ok in Edr.
    pose proof (ti_added_len _ _ _ _ _ _ _ H) as Hal.
    destruct (r_gone dr) eqn:Hg.
    { destruct (IH s kinds num num' m cs added) as (new & H1 & H2 & H3 & H4 & H5 & H6); auto. exists new. split; [|split; [|split; [|split; [|split]]]]; auto.
      - intros r' Hr'. destruct (H3 r' Hr') as (? & ? & ?). simpl. auto.
      - intros Hlt r' dr' [<-|Hr'] Hdr' Hg' Hn; [congruence|]. eapply H6; eauto. }
    destruct (10 <=? num) eqn:Hten.
    { injection E as <- <- <- <-. apply Nat.leb_le in Hten. exists []. simpl. rewrite app_nil_r.
      split; [|split; [|split; [|split; [|split]]]]; auto; try lia.
      - destruct s. exact H.
      - constructor. }
    apply Nat.leb_gt in Hten.
    destruct (getitem_lt (tm_added s) r) as [a Ea]; [lia|]. rewrite Ea in E. cbn [bind] in E. apply getitem_ok in Ea.
    destruct a.
    { destruct (IH s kinds num num' m cs added) as (new & H1 & H2 & H3 & H4 & H5 & H6); auto. exists new. split; [|split; [|split; [|split; [|split]]]]; auto.
      - intros r' Hr'. destruct (H3 r' Hr') as (? & ? & ?). simpl. auto.
      - intros Hlt r' dr' [<-|Hr'] Hdr' Hg' Hn; [|eapply H6; eauto].
        exfalso. apply Hn, in_app_iff. left. apply (ti_added _ _ _ _ _ _ _ H); auto. }
    destruct (violated_row_constraint values (r_paths dr)) as [v|e] eqn:Ev; [|discriminate]. cbn [bind] in E.
    destruct v.
    + rewrite setitem_ok in E by lia. cbn [bind] in E. unfold new_con in E. cbn iota beta zeta in E.
      rewrite setitem_ok in E by (rewrite (ti_row_len _ _ _ _ _ _ _ H); auto). cbn [bind] in E. rewrite fold_ones in E.
      pose proof (row_con_step kinds zs s r rows dr H Hrows Edr Hg Ea) as H'.
      assert (Hnew : ~ In (KRow r) kinds).
      { intros Hi. apply (ti_added _ _ _ _ _ _ _ H) in Hi; auto. congruence. }
      match type of H' with context [with_cons s ?m ?sp ?rc ?ad ?cc] => set (s' := with_cons s m sp rc ad cc) in * end.
      destruct (IH s' (kinds ++ [KRow r]) (S num) num' m cs added H' Hrows Hrs' E) as (new & H1 & H2 & H3 & H4 & H5 & H6).
      exists (r :: new). rewrite <- app_assoc in H1, H6. simpl in *.
      split; [|split; [|split; [|split; [|split]]]]; auto; try lia.
      * intros r' [<-|Hr']; [split; auto; split; auto; exists dr; auto|].
        destruct (H3 r' Hr') as (H7 & H8 & H9). split; auto. split; auto. intros Hi. apply H8, in_app_iff. auto.
      * constructor; auto. intros Hi. destruct (H3 r Hi) as (_ & H8 & _). apply H8, in_app_iff. simpl. auto.
      * intros Hlt r' dr' [<-|Hr'] Hdr' Hg' Hn; [|eapply H6; eauto]. exfalso. apply Hn, in_app_iff. simpl. auto.
    + destruct (IH s kinds num num' m cs added) as (new & H1 & H2 & H3 & H4 & H5 & H6); auto. exists new. split; [|split; [|split; [|split; [|split]]]]; auto.
      * intros r' Hr'. destruct (H3 r' Hr') as (? & ? & ?). simpl. auto.
      * intros Hlt r' dr' [<-|Hr'] Hdr' Hg' Hn; [|eapply H6; eauto]. exists dr. auto.
Qed.

Lemma add_beta_cuts_inv kinds zs s num s' : tinv kinds zs s -> add_beta_cuts s = Ok (num, s') ->
  exists new rows m cs added, tm_rows s = Some rows /\ s' = with_cons s m (tm_splits s) cs added (tm_cut_cons s) /\
    tinv (kinds ++ map KRow new) zs s' /\ num = length new /\
    (forall r, In r new -> r < length X /\ ~ In (KRow r) kinds /\ row_violated (tm_values s) rows r true) /\ NoDup new /\
    num <= 10 /\
    (num < 10 -> forall r dr, r < length X -> nth_error rows r = Some dr -> r_gone dr = false -> ~ In (KRow r) (kinds ++ map KRow new) ->
       row_violated (tm_values s) rows r false).
Proof.
  intros H E. unfold add_beta_cuts in E. rewrite (ti_gen _ _ _ _ _ _ _ H) in E. cbn [bind assert] in E.
  destruct (ti_rows _ _ _ _ _ _ _ H) as (rows & Hrows & _). unfold tm_data_rows in E. rewrite Hrows in E. cbn [bind] in E.
  rewrite (ti_X _ _ _ _ _ _ _ H) in E.
  destruct (beta_loop rows (tm_values s) (seq 0 (length X)) (tm_lp s, tm_row_cons s, tm_added s) 0) as [[num' [[m cs] added]]|e] eqn:El; [|discriminate].
  cbn [bind] in E. injection E as <- <-.
  destruct (beta_loop_inv rows (tm_values s) zs (seq 0 (length X)) s kinds 0 num' m cs added) as (new & H1 & H2 & H3 & H4 & H5 & H6); auto.
  { apply Forall_forall. intros r Hr. apply in_seq in Hr. lia. }
  exists new, rows, m, cs, added. split; [exact Hrows|]. split; [reflexivity|]. split; [exact H1|]. split; [exact H2|]. split; [|split; [exact H4|split; [lia|]]].
  - intros r Hr. destruct (H3 r Hr) as (H7 & H8 & H9). apply in_seq in H7. split; [lia|auto].
  - intros Hlt r dr Hr. apply H6; auto. apply in_seq. lia.
Qed.

(** A stored solution: every path has its value. *)
Definition stored (x : nat -> Q) (s : tmaster) : Prop := tm_values s = map (fun v => (v, x v)) (tm_path_vars s).

Lemma assoc_values x (l : list nat) v : In v l -> assoc Nat.eqb (map (fun v => (v, x v)) l) v = Some (x v : Q).
Proof.
  induction l as [|a l IH]; simpl; intros H; [contradiction|]. destruct (Nat.eqb_spec a v) as [->|Hne]; auto.
  destruct H; [contradiction|auto].
Qed.
Lemma lookup_values x (l : list nat) v : In v l -> lookup Nat.eqb (map (fun v => (v, x v)) l) v = Ok (x v : Q).
Proof. intros H. unfold lookup. rewrite assoc_values; auto. Qed.

Lemma sum_values x l ids : incl ids l ->
  exists q, for_each ids (fun i acc => let* q := lookup Nat.eqb (map (fun v => (v, x v)) l) i in Ok (acc + q)%Q) 0%Q = Ok q /\
    (q == qsum x ids)%Q.
Proof.
  intros H. assert (G : forall acc, exists q, for_each ids (fun i acc => let* q := lookup Nat.eqb (map (fun v => (v, x v)) l) i in Ok (acc + q)%Q) acc = Ok q /\
    (q == acc + qsum x ids)%Q).
  { induction ids as [|i ids IH]; intros acc.
    - exists acc. split; auto. unfold qsum. simpl. lra.
    - destruct (IH (fun a Ha => H a (or_intror Ha)) (acc + x i)%Q) as (q & E & Hq). exists q. cbn [for_each].
      rewrite lookup_values by (apply H; simpl; auto). cbn [bind]. split; auto. rewrite Hq, qsum_cons. lra. }
  destruct (G 0%Q) as (q & E & Hq). exists q. split; auto. lra.
Qed.

(** The LP sum of a row: the values of the paths it follows. *)
Definition row_sum (x : nat -> Q) (paths : list path) (r : nat) : Q := qsum (fun p => if cov (KRow r) p then x (p_id p) else 0%Q) paths.

Lemma qsum_if_filter {A} (f : A -> Q) (b : A -> bool) l : (qsum (fun a => if b a then f a else 0) l == qsum f (filter b l))%Q.
Proof.
  induction l as [|a l IH]; [reflexivity|]. rewrite qsum_cons, IH. simpl. destruct (b a); [rewrite qsum_cons|]; lra.
Qed.

Lemma NoDup_same {A} (l m : list A) : NoDup l -> NoDup m -> (forall a, In a l <-> In a m) -> Permutation l m.
Proof. intros. apply NoDup_Permutation; auto. Qed.

Lemma row_sum_ids x kinds zs s rows r dr : tinv kinds zs s -> tm_rows s = Some rows -> nth_error rows r = Some dr ->
  (qsum x (r_paths dr) == row_sum x (tm_paths s) r)%Q.
Proof.
  intros H Hrows Hdr. pose proof (ti_rows _ _ _ _ _ _ _ H) as (rows' & E & [Hrl Hrp] & Hrg). assert (rows' = rows) by congruence. subst rows'.
  destruct (Hrp r dr Hdr) as [Hnd Hin]. unfold row_sum.
  rewrite qsum_if_filter. rewrite <- (qsum_map p_id x). apply qsum_perm, NoDup_same; auto.
  - pose proof (lo_ids _ _ _ _ _ (ti_lp _ _ _ _ _ _ _ H)) as Hi. apply NoDup_app_l in Hi.
    apply NoDup_map_filter. auto.
  - intros v. rewrite Hin, in_map_iff. split; intros (p & H1 & H2).
    + exists p. rewrite filter_In. intuition.
    + rewrite filter_In in H2. exists p. intuition.
Qed.

Lemma row_violated_sum x kinds zs s rows r dr : tinv kinds zs s -> stored x s -> tm_rows s = Some rows -> nth_error rows r = Some dr ->
  exists b, violated_row_constraint (tm_values s) (r_paths dr) = Ok b /\ (b = true <-> (teps < Qabs (row_sum x (tm_paths s) r - 1))%Q).
Proof.
  intros H Hx Hrows Hdr. unfold violated_row_constraint. rewrite Hx.
  pose proof (ti_rows _ _ _ _ _ _ _ H) as (rows' & E & [Hrl Hrp] & Hrg). assert (rows' = rows) by congruence. subst rows'.
  destruct (Hrp r dr Hdr) as [Hnd Hin].
  destruct (sum_values x (tm_path_vars s) (r_paths dr)) as (q & Eq & Hq).
  { intros v Hv. apply Hin in Hv. destruct Hv as (p & Hp & <- & _). rewrite (ti_pvars _ _ _ _ _ _ _ H). apply in_map. auto. }
  rewrite Eq. cbn [bind]. eexists. split; [reflexivity|]. rewrite (row_sum_ids x kinds zs s rows r dr) in Hq by auto.
  unfold Qltb. rewrite Bool.negb_true_iff.
  assert (Ha : (Qabs (q - 1) == Qabs (row_sum x (tm_paths s) r - 1))%Q) by (rewrite Hq; reflexivity).
  split.
  - intros Hb. apply Qle_bool_false in Hb. lra.
  - intros Hb. destruct (Qle_bool _ _) eqn:Eb; auto. apply Qle_bool_iff in Eb. lra.
Qed.

(** With a stored solution add_beta_cuts succeeds. *)
Lemma beta_loop_ok x rows zs : forall rs s kinds num, tinv kinds zs s -> stored x s -> tm_rows s = Some rows -> Forall (fun r => r < length X) rs ->
  exists res, beta_loop rows (tm_values s) rs (tm_lp s, tm_row_cons s, tm_added s) num = Ok res.
Proof.
  induction rs as [|r rs IH]; intros s kinds num H Hx Hrows Hrs; [eexists; reflexivity|].
  inversion Hrs as [|? ? Hr Hrs']; subst. cbn [beta_loop].
  pose proof (ti_rows _ _ _ _ _ _ _ H) as (rows' & E' & [Hrl Hrp] & Hrg). assert (rows' = rows) by congruence. subst rows'. clear E'.
  destruct (getitem_lt rows r) as [dr Edr]; [lia|]. rewrite Edr. cbn [bind]. apply getitem_ok in Edr.
  pose proof (ti_added_len _ _ _ _ _ _ _ H) as Hal.
  destruct (r_gone dr) eqn:Hg; [eapply IH; eauto|].
  destruct (10 <=? num); [eexists; reflexivity|].
  destruct (getitem_lt (tm_added s) r) as [a Ea]; [lia|]. rewrite Ea. cbn [bind]. apply getitem_ok in Ea.
  destruct a; [eapply IH; eauto|].
  destruct (row_violated_sum x kinds zs s rows r dr H Hx Hrows Edr) as (v & Ev & _). rewrite Ev. cbn [bind].
  destruct v; [|eapply IH; eauto].
  rewrite setitem_ok by lia. cbn [bind]. unfold new_con. cbn iota beta zeta.
  rewrite setitem_ok by (rewrite (ti_row_len _ _ _ _ _ _ _ H); auto). cbn [bind]. rewrite fold_ones.
  pose proof (row_con_step kinds zs s r rows dr H Hrows Edr Hg Ea) as H'.
  match type of H' with context [with_cons s ?m ?sp ?rc ?ad ?cc] => set (s' := with_cons s m sp rc ad cc) in * end.
  exact (IH s' _ (S num) H' Hx Hrows Hrs').
Qed.

Lemma add_beta_cuts_ok x kinds zs s : tinv kinds zs s -> stored x s -> exists num s', add_beta_cuts s = Ok (num, s').
Proof.
  intros H Hx. unfold add_beta_cuts. rewrite (ti_gen _ _ _ _ _ _ _ H). cbn [bind assert].
  destruct (ti_rows _ _ _ _ _ _ _ H) as (rows & Hrows & _). unfold tm_data_rows. rewrite Hrows. cbn [bind].
  rewrite (ti_X _ _ _ _ _ _ _ H).
  destruct (beta_loop_ok x rows zs (seq 0 (length X)) s kinds 0) as [[num [[m cs] added]] E]; auto.
  { apply Forall_forall. intros r Hr. apply in_seq in Hr. lia. }
  rewrite E. cbn [bind]. eauto.
Qed.

(** * Generated cuts *)

(** A (cut, cut_row) pair the callback may collect. *)
Definition cut_pair (paths : list path) (c : list bool * list bool) : Prop :=
  length (snd c) = length splits0 /\ fst c = map (cov (KCut (snd c))) paths.

Lemma store_cut_ok zs splits z : Forall2 same_core splits splits0 -> length z = length splits0 ->
  (forall k sp, nth_error splits k = Some sp ->
    (forall c, In c (s_lcuts sp) <-> exists z, nth_error zs c = Some z /\ nth k z false = true) /\
    (forall c, In c (s_rcuts sp) <-> exists z, nth_error zs c = Some z /\ nth k z false = false) /\
    NoDup (s_lcuts sp) /\ NoDup (s_rcuts sp)) ->
  exists splits', store_cut (length zs) z splits = Ok splits' /\ Forall2 same_core splits' splits0 /\
    (forall k sp, nth_error splits' k = Some sp ->
      (forall c, In c (s_lcuts sp) <-> exists z', nth_error (zs ++ [z]) c = Some z' /\ nth k z' false = true) /\
      (forall c, In c (s_rcuts sp) <-> exists z', nth_error (zs ++ [z]) c = Some z' /\ nth k z' false = false) /\
      NoDup (s_lcuts sp) /\ NoDup (s_rcuts sp)).
Proof.
  intros Hc Hz Hs. unfold store_cut.
  set (f := fun sp => mkSplit (s_id sp) (s_feature sp) (s_threshold sp) (s_removed sp) (s_lrows sp) (s_rrows sp)
                           (if nth (s_id sp) z false then set_add (length zs) (s_lcuts sp) else s_lcuts sp)
                           (if nth (s_id sp) z false then s_rcuts sp else set_add (length zs) (s_rcuts sp))).
  assert (Hid : forall k sp, nth_error splits k = Some sp -> s_id sp = k /\ k < length z).
  { intros k sp Hk. destruct (Forall2_nth_l _ _ _ _ _ Hc Hk) as (t & Ht & E & _). rewrite E. split.
    - apply (wt_ids _ _ _ _ wf). auto.
    - rewrite Hz. apply nth_error_Some. congruence. }
  exists (map f splits). split; [|split].
  - apply map_res_ok. intros sp Hsp. apply In_nth_error in Hsp. destruct Hsp as [k Hk]. destruct (Hid k sp Hk) as [E Hlt].
    destruct (getitem_lt z (s_id sp)) as [b Eb]; [lia|]. rewrite Eb. cbn [bind]. unfold f. apply getitem_ok in Eb.
    rewrite (nth_error_nth _ _ _ Eb). reflexivity.
  - clear - Hc. induction Hc as [|s t ss ts H]; simpl; constructor; auto.
  - intros k sp' Hk. rewrite nth_error_map in Hk. destruct (nth_error splits k) as [sp|] eqn:Esp; [|discriminate]. injection Hk as <-.
    destruct (Hid k sp Esp) as [E Hlt]. destruct (Hs k sp Esp) as (HL & HR & NL & NR). unfold f. cbn [s_lcuts s_rcuts]. rewrite E.
    assert (Hex : forall b c, (exists z', nth_error (zs ++ [z]) c = Some z' /\ nth k z' false = b) <->
      (exists z', nth_error zs c = Some z' /\ nth k z' false = b) \/ (c = length zs /\ nth k z false = b)).
    { intros b c. split.
      - intros (z' & H1 & H2). apply nth_error_snoc in H1. destruct H1 as [H1|[-> ->]]; eauto.
      - intros [(z' & H1 & H2)|[-> H2]]; [exists z'|exists z]; rewrite nth_error_snoc; auto. }
    split; [|split; [|split; destruct (nth k z false); auto using set_add_NoDup]]; intros c; rewrite Hex; destruct (nth k z false); rewrite ?set_add_In, ?HL, ?HR; intuition discriminate.
Qed.

Lemma make_cut_con_loop paths cut c : forall u v cu cv m, paths = u ++ v -> cut = cu ++ cv -> length u = length cu -> length v = length cv ->
  for_each (seq (length u) (length v))
    (fun i m => let* p := getitem paths i in let* b := getitem cut i in
                Ok (if (b : bool) then set_coef c (p_id p) 1%Q m else m)) m =
  Ok (ones (map (fun pb => (c, p_id (fst pb))) (filter snd (combine v cv))) m).
Proof.
  intros u v. revert u. induction v as [|p v IH]; intros u cu cv m Hp Hc Hl Hlv; [destruct cv; reflexivity|].
  destruct cv as [|b cv]; [discriminate|]. simpl in Hlv. cbn [length seq for_each].
  assert (G1 : getitem paths (length u) = Ok p) by (rewrite Hp; apply getitem_mid).
  assert (G2 : getitem cut (length u) = Ok b) by (rewrite Hc, Hl; apply getitem_mid).
  rewrite G1. cbn [bind]. rewrite G2. cbn [bind].
  replace (S (length u)) with (length (u ++ [p])) by (rewrite app_length; simpl; lia).
  rewrite (IH (u ++ [p]) (cu ++ [b]) cv); try (rewrite <- app_assoc; auto); try (rewrite !app_length; simpl; lia); [|lia].
  simpl. destruct b; reflexivity.
Qed.

Lemma cut_con_step kinds zs s c splits' : tinv kinds zs s -> cut_pair (tm_paths s) c ->
  Forall2 same_core splits' splits0 ->
  (forall k sp, nth_error splits' k = Some sp ->
      (forall i, In i (s_lcuts sp) <-> exists z', nth_error (zs ++ [snd c]) i = Some z' /\ nth k z' false = true) /\
      (forall i, In i (s_rcuts sp) <-> exists z', nth_error (zs ++ [snd c]) i = Some z' /\ nth k z' false = false) /\
      NoDup (s_lcuts sp) /\ NoDup (s_rcuts sp)) ->
  exists m cs added, make_cut_con (tm_paths s) (fst c) (tm_lp s, tm_cut_cons s, tm_added s) = Ok (m, cs, added) /\
    tinv (kinds ++ [KCut (snd c)]) (zs ++ [snd c]) (with_cons s m splits' (tm_row_cons s) added cs).
Proof.
  intros H [Hz Hcut] Hcore Hsides. destruct c as [cut z]. cbn [fst snd] in *. unfold make_cut_con, new_con. cbn iota beta zeta.
  set (m1 := mkLp (lp_vars (tm_lp s)) (lp_obj (tm_lp s)) (lp_off (tm_lp s)) (lp_max (tm_lp s))
     (lp_cons (tm_lp s) ++ [mkCon (Some 1%Q) (Some 1%Q) (fun _ => 0%Q)])).
  assert (El : length (tm_paths s) = length cut) by (rewrite Hcut, map_length; reflexivity).
  pose proof (make_cut_con_loop (tm_paths s) cut (num_cons (tm_lp s)) [] (tm_paths s) [] cut m1 eq_refl eq_refl eq_refl El) as Eloop.
  unfold num_cons in Eloop. cbn [length] in Eloop. rewrite Eloop. cbn [bind]. clear Eloop.
  set (l := map _ (filter snd (combine (tm_paths s) cut))). eexists _, _, _. split; [reflexivity|].
  assert (Hlen : length kinds = num_cons (tm_lp s)) by (eapply lp_ok_kinds; apply (ti_lp _ _ _ _ _ _ _ H)).
  assert (Hones : ones_rel l m1 (ones l m1)) by apply ones_rel_ones.
  assert (Hlp : lp_ok cov (tm_paths s) (tm_ns_vars s) (kinds ++ [KCut z]) (ones l m1)).
  { refine (lp_ok_con cov (tm_paths s) (tm_ns_vars s) kinds (tm_lp s) _ (KCut z) l (ti_lp _ _ _ _ _ _ _ H) _ Hones _).
    - intros n k. reflexivity.
    - intros i j. unfold l. rewrite in_map_iff. fold (num_cons (tm_lp s)). split.
      + intros ([p b] & E & Hv). injection E as <- <-. split; auto. apply filter_In in Hv. destruct Hv as [Hv Hb]. simpl in Hb. subst b.
        exists p. split; [eapply in_combine_l; eauto|]. split; auto.
        rewrite Hcut in Hv. apply combine_map_In in Hv. symmetry. apply Hv.
      + intros [-> (p & Hp & Ej & Hcov)]. exists (p, true). split; [simpl; congruence|]. apply filter_In. split; auto.
        rewrite Hcut. apply combine_map_In. auto. }
  destruct H. split; cbn; auto.
  - apply Forall_app. split; auto.
  - rewrite <- ti_max. exact (or_max _ _ _ Hones).
  - destruct ti_rows as (rows & Hrows & Hok & Hg). exists rows. split; auto. split; auto. intros r' Hr'. apply in_app_iff in Hr'.
    destruct Hr' as [Hr'|[E|[]]]; auto. discriminate.
  - apply links_other; auto. discriminate.
  - intros l'. rewrite in_app_iff, ti_leaf_in. simpl. intuition discriminate.
  - apply links_other; auto. discriminate.
  - rewrite app_length. lia.
  - intros r Hr. rewrite nth_error_app1 by lia. rewrite ti_added, in_app_iff by auto. simpl. intuition discriminate.
  - apply klinks_other; auto. discriminate.
  - intros l' n k. rewrite in_app_iff, ti_ns_in. simpl. intuition discriminate.
  - intros n k. rewrite ti_ns_vars. split; intros (l' & Hi); exists l'; rewrite in_app_iff in *; simpl in *; intuition discriminate.
  - rewrite !app_length. simpl. congruence.
  - intros i c Hi. apply nth_error_snoc in Hi. destruct Hi as [Hi|[-> <-]].
    + destruct (ti_cut i c Hi) as (z' & Hz' & Hk). exists z'. rewrite !nth_error_snoc. auto.
    + exists z. rewrite !nth_error_snoc. auto.
  - intros c z' Hc. apply nth_error_snoc in Hc. destruct Hc as [Hc|[-> E]].
    + destruct (ti_cut_in c z' Hc) as [i Hi]. exists i. apply nth_error_snoc. auto.
    + exists (length (tm_cut_cons s)). apply nth_error_snoc. auto.
  - apply NoDup_snoc; auto. intros Hi. apply In_nth_error in Hi. destruct Hi as [i Hi]. destruct (ti_cut i _ Hi) as (z' & _ & Hk).
    assert (length (lp_cons (tm_lp s)) < length kinds) by (apply nth_error_Some; congruence). unfold num_cons in Hlen. lia.
Qed.

Lemma cut_cons_ok : forall cuts s kinds zs, tinv kinds zs s -> Forall (cut_pair (tm_paths s)) cuts ->
  exists splits' m cs added,
    for_each (combine (seq (length zs) (length cuts)) cuts) (fun kc splits => store_cut (fst kc) (snd (snd kc)) splits) (tm_splits s) = Ok splits' /\
    for_each cuts (fun c st => make_cut_con (tm_paths s) (fst c) st) (tm_lp s, tm_cut_cons s, tm_added s) = Ok (m, cs, added) /\
    tinv (kinds ++ map KCut (map snd cuts)) (zs ++ map snd cuts) (with_cons s m splits' (tm_row_cons s) added cs).
Proof.
  induction cuts as [|c cuts IH]; intros s kinds zs H Hc.
  - eexists _, _, _, _. split; [reflexivity|]. split; [reflexivity|]. simpl. rewrite !app_nil_r. destruct s. exact H.
  - inversion Hc as [|? ? Hc1 Hc2]; subst.
    destruct (store_cut_ok zs (tm_splits s) (snd c)) as (splits1 & E1 & C1 & S1).
    { apply (ti_splits _ _ _ _ _ _ _ H). } { apply Hc1. } { apply (ti_sides _ _ _ _ _ _ _ H). }
    destruct (cut_con_step kinds zs s c splits1 H Hc1 C1 S1) as (m & cs & added & E2 & H').
    set (s' := with_cons s m splits1 (tm_row_cons s) added cs) in *.
    destruct (IH s' _ _ H' Hc2) as (splits2 & m2 & cs2 & added2 & E3 & E4 & H2).
    exists splits2, m2, cs2, added2. cbn [length seq combine for_each fst snd map]. rewrite E1. cbn [bind]. split; [|split].
    + rewrite app_length in E3. simpl in E3. rewrite Nat.add_1_r in E3. exact E3.
    + rewrite E2. cbn [bind]. exact E4.
    + rewrite <- !app_assoc in H2. exact H2.
Qed.

Lemma lookup_all x s : stored x s -> tm_path_vars s = map p_id (tm_paths s) ->
  map_res (fun p => lookup Nat.eqb (tm_values s) (p_id p)) (tm_paths s) = Ok (map (fun p => x (p_id p)) (tm_paths s)).
Proof.
  intros Hx Hv. apply map_res_ok. intros p Hp. rewrite Hx. apply lookup_values. rewrite Hv. apply in_map. auto.
Qed.

(** A cut (pair) collected by the callback: the values of a solution of the cut model above the threshold. *)
Definition collected (cm : cutmodel) (coeffs : list Q) (c : list bool * list bool) : Prop :=
  exists pz, cut_solution cm pz /\ c = (map (fst pz) (seq 0 (length coeffs)), map (snd pz) (seq 0 (cm_splits cm))) /\
    (1 + teps < qsum (fun i => if fst pz i then nth i coeffs 0%Q else 0%Q) (seq 0 (length coeffs)))%Q.

Lemma callback_collected cm coeffs sols : Forall (cut_solution cm) sols -> forall cuts, Forall (collected cm coeffs) cuts ->
  Forall (collected cm coeffs) (fold_left (on_cut_solution (cm_splits cm) coeffs) sols cuts).
Proof.
  induction sols as [|pz sols IH]; intros Hs cuts Hc; simpl; auto. inversion Hs; subst. apply IH; auto.
  unfold on_cut_solution. destruct (Qltb _ _) eqn:E; auto. apply Forall_app. split; auto. constructor; [|constructor].
  exists pz. split; auto. split; auto. apply Qltb_true in E. exact E.
Qed.

Lemma nth_error_Some_map_seq {A} (f : nat -> A) n i : i < n -> nth_error (map f (seq 0 n)) i = Some (f i).
Proof. intros H. rewrite nth_error_map, seq_nth_error by auto. reflexivity. Qed.

Lemma nth_map_seq {A} (f : nat -> A) n i a : i < n -> nth i (map f (seq 0 n)) a = f i.
Proof. intros H. apply nth_error_nth. apply nth_error_Some_map_seq. auto. Qed.

Lemma collected_pair kinds zs s coeffs c : tinv kinds zs s -> length coeffs = length (tm_paths s) -> collected (tm_cutmodel s) coeffs c ->
  cut_pair (tm_paths s) c.
Proof.
  intros H Hlen (pz & [Hp Hi] & -> & _). unfold cut_pair. cbn [fst snd].
  rewrite (ti_cm_splits _ _ _ _ _ _ _ H), map_length, seq_length. split; auto.
  rewrite Hlen. apply nth_error_ext. intros i. rewrite !nth_error_map.
  destruct (nth_error (tm_paths s) i) as [p|] eqn:Ep.
  - assert (Hlt : i < length (tm_paths s)) by (apply nth_error_Some; congruence). rewrite seq_nth_error by auto. cbn [option_map plus]. f_equal.
    assert (Hl : nth_error (cm_paths (tm_cutmodel s)) i = Some (lits (create_leaf (p_leaf p) d) p)).
    { rewrite (ti_cm_paths _ _ _ _ _ _ _ H), nth_error_map, Ep. reflexivity. }
    rewrite (Hp i _ Hl), lits_followsb.
    pose proof (ti_plain _ _ _ _ _ _ _ H) as Hpl. rewrite Forall_forall in Hpl. assert (Hpp : plain_path d splits0 p) by (apply Hpl; eapply nth_error_In; eauto).
    destruct Hpp as (Hl1 & _ & _ & Hr). rewrite (cov_cut d X splits0) by auto. apply followsb_ext. intros k Hk.
    rewrite nth_map_seq; auto. rewrite Forall_forall in Hr. auto.
  - assert (Hge : length (tm_paths s) <= i) by (apply nth_error_None; auto).
    assert (En : nth_error (seq 0 (length (tm_paths s))) i = None) by (apply nth_error_None; rewrite seq_length; auto).
    rewrite En. reflexivity.
Qed.

Lemma add_cuts_from coeffs kinds zs s sols : tinv kinds zs s ->
  map_res (fun p => lookup Nat.eqb (tm_values s) (p_id p)) (tm_paths s) = Ok coeffs ->
  (forall scaled, Forall (cut_solution (tm_cutmodel s)) (sols (tm_cutmodel s) scaled)) ->
  exists new m splits' added cs s', add_cuts sols s = Ok (new, s') /\
    s' = with_cons s m splits' (tm_row_cons s) added cs /\
    tinv (kinds ++ map KCut new) (zs ++ new) s' /\
    Forall (fun z => exists cut, collected (tm_cutmodel s) coeffs (cut, z)) new.
Proof.
  intros H Hx Hs. unfold add_cuts. rewrite Hx. cbn [bind].
  set (scaled := map _ coeffs).
  set (cuts := fold_left _ (sols (tm_cutmodel s) scaled) []).
  assert (Hlen : length coeffs = length (tm_paths s)).
  { clear - Hx. revert coeffs Hx. induction (tm_paths s) as [|p l IH]; simpl; intros coeffs Hx; [injection Hx as <-; auto|].
    destruct (lookup _ _ _); [|discriminate]. cbn [bind] in Hx. destruct (map_res _ l) eqn:E; [|discriminate].
    cbn [bind] in Hx. injection Hx as <-. simpl. f_equal. auto. }
  assert (Hc : Forall (collected (tm_cutmodel s) coeffs) cuts) by (apply callback_collected; [apply Hs|constructor]).
  assert (Hp : Forall (cut_pair (tm_paths s)) cuts).
  { eapply Forall_impl; [|exact Hc]. intros c. apply (collected_pair kinds zs); auto. }
  assert (Hn : Forall (fun z => exists cut, collected (tm_cutmodel s) coeffs (cut, z)) (map snd cuts)).
  { apply Forall_forall. intros z Hz. apply in_map_iff in Hz. destruct Hz as ([cut z'] & <- & Hi). exists cut. rewrite Forall_forall in Hc. apply Hc. auto. }
  destruct cuts as [|c cuts'] eqn:Ec.
  - cbn [length Nat.eqb]. exists [], (tm_lp s), (tm_splits s), (tm_added s), (tm_cut_cons s), s. simpl. rewrite !app_nil_r.
    split; [reflexivity|]. split; [destruct s; reflexivity|]. split; auto.
  - cbn [length Nat.eqb]. rewrite <- Ec in *. change (S (length cuts')) with (length (c :: cuts')). rewrite <- Ec.
    destruct (cut_cons_ok cuts s kinds zs H Hp) as (splits' & m & cs & added & E1 & E2 & H').
    rewrite (ti_cut_len _ _ _ _ _ _ _ H), E1. cbn [bind]. rewrite E2. cbn [bind].
    eexists _, _, _, _, _, _. split; [reflexivity|]. split; [reflexivity|]. split; auto.
Qed.

Lemma add_cuts_ok x kinds zs s sols : tinv kinds zs s -> stored x s ->
  (forall scaled, Forall (cut_solution (tm_cutmodel s)) (sols (tm_cutmodel s) scaled)) ->
  exists new m splits' added cs s', add_cuts sols s = Ok (new, s') /\
    s' = with_cons s m splits' (tm_row_cons s) added cs /\
    tinv (kinds ++ map KCut new) (zs ++ new) s' /\
    Forall (fun z => exists cut, collected (tm_cutmodel s) (map (fun p => x (p_id p)) (tm_paths s)) (cut, z)) new.
Proof. intros H Hx. apply add_cuts_from; auto. apply lookup_all; auto. apply (ti_pvars _ _ _ _ _ _ _ H). Qed.

(** * LP solves *)

Lemma tinv_store kinds zs s x : tinv kinds zs s -> tinv kinds zs (store_lp_solution x s) /\ stored x (store_lp_solution x s).
Proof. intros H. split; [|reflexivity]. destruct H. split; auto. Qed.
Lemma tinv_solve sv kinds zs s : tinv kinds zs s -> tinv kinds zs (solve_lp sv s).
Proof. intros H. destruct H. split; auto. Qed.
Lemma tinv_total k kinds zs s : tinv kinds zs s -> tinv kinds zs (add_total k s).
Proof. intros H. destruct H. split; auto. Qed.
Lemma tinv_start kinds zs s : tinv kinds zs s -> tinv kinds zs (start_iter s).
Proof. intros H. destruct H. split; auto. Qed.
Lemma tinv_selected ps kinds zs s : tinv kinds zs s -> tinv kinds zs (with_selected ps s).
Proof. intros H. destruct H. split; auto. Qed.
End Cuts.
