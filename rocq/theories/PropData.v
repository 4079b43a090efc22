(** C81: the data the experiment script trains on. *)
From Coq Require Import String Ascii Sorted.
From Verif Require Import Base ExpModel ExpMainModel SpecPrep SpecMain ScriptModel SpecScript.
Open Scope nat_scope.

(** ** Generic *)
Lemma map_res_F2 {A B} (f : A -> res B) : forall l r, map_res f l = Ok r <-> Forall2 (fun a b => f a = Ok b) l r.
Proof.
  induction l as [|a l IH]; intros r; cbn [map_res].
  - split; [intros H; injection H as <-; constructor|intros H; inversion H; reflexivity].
  - destruct (f a) as [b|e] eqn:E; cbn [bind].
    + destruct (map_res f l) as [bs|e]; cbn [bind].
      * split; [intros H; injection H as <-; constructor; [exact E|apply IH; reflexivity]|]. intros H. inversion H as [|? b' ? r' H1 H2]; subst. apply IH in H2. congruence.
      * split; [discriminate|]. intros H. inversion H as [|? b' ? r' H1 H2]; subst. apply IH in H2. discriminate.
    + split; [discriminate|]. intros H. inversion H; subst. congruence.
Qed.
Lemma map_res_all {A B} (f : A -> res B) : forall l, (exists r, map_res f l = Ok r) <-> Forall (fun a => exists b, f a = Ok b) l.
Proof.
  induction l as [|a l IH]; cbn [map_res].
  - split; [constructor|eauto].
  - destruct (f a) as [b|e] eqn:E; cbn [bind].
    + destruct (map_res f l) as [bs|e]; cbn [bind].
      * split; [intros _; constructor; [eauto|apply IH; eauto]|eauto].
      * split; [intros [r H]; discriminate H|]. intros H. inversion H as [|? ? _ H2]; subst. apply IH in H2. destruct H2 as [r H2]. discriminate H2.
    + split; [intros [r H]; discriminate H|]. intros H. inversion H as [|? ? [b H1] _]; subst. congruence.
Qed.
Lemma map_res_only {A B} (f : A -> res B) e0 : forall l, (forall a e, In a l -> f a = Err e -> e = e0) -> forall e, map_res f l = Err e -> e = e0.
Proof.
  induction l as [|a l IH]; intros H e; cbn [map_res]; [discriminate|]. destruct (f a) as [b|e1] eqn:E; cbn [bind].
  - destruct (map_res f l) as [bs|e2]; cbn [bind]; [discriminate|]. intros H1. injection H1 as <-. apply IH; [|reflexivity]. intros; eapply H; [right|]; eauto.
  - intros H1. injection H1 as <-. eapply H; [left; reflexivity|exact E].
Qed.
Lemma F2_len {A B} (R : A -> B -> Prop) l m : Forall2 R l m -> length l = length m.
Proof. induction 1; cbn; congruence. Qed.
Lemma getitem_iff {A} (l : list A) i a : getitem l i = Ok a <-> nth_error l i = Some a.
Proof. unfold getitem. destruct (nth_error l i); split; congruence. Qed.

(** ** Labels *)
Section Labels.
Context {V : Type} (lt : V -> V -> bool) (O : strict_order lt).
Let L := fun a b => lt a b = true.
Lemma insert_in v l : forall w, In w (insert_label lt v l) <-> w = v \/ In w l.
Proof.
  induction l as [|u l IH]; intros w; cbn [insert_label]; [cbn; intuition|]. destruct (lt v u) eqn:E1; [cbn; intuition|]. destruct (lt u v) eqn:E2.
  - cbn [In]. rewrite IH. intuition.
  - pose proof (so_total _ O _ _ E1 E2). subst u. cbn; intuition.
Qed.
Lemma insert_sorted v l : StronglySorted L l -> StronglySorted L (insert_label lt v l).
Proof.
  induction 1 as [|u l S IH F]; cbn [insert_label]; [repeat constructor|]. destruct (lt v u) eqn:E1.
  - constructor; [constructor; auto|]. constructor; [exact E1|]. eapply Forall_impl; [|exact F]. intros w Hw. eapply (so_trans _ O); eauto.
  - destruct (lt u v) eqn:E2; [|constructor; auto]. constructor; [exact IH|]. apply Forall_forall. intros w Hw. apply insert_in in Hw. destruct Hw as [->|Hw]; [exact E2|]. rewrite Forall_forall in F. auto.
Qed.
Lemma classes_in ys v : In v (label_classes lt ys) <-> In v ys.
Proof. unfold label_classes. induction ys as [|u ys IH]; [reflexivity|]. cbn [fold_right]. rewrite insert_in, IH. cbn. intuition. Qed.
Lemma classes_sorted ys : StronglySorted L (label_classes lt ys).
Proof. unfold label_classes. induction ys as [|u ys IH]; [constructor|]. apply insert_sorted. exact IH. Qed.
Lemma sorted_lt l : StronglySorted L l -> forall i j a b, nth_error l i = Some a -> nth_error l j = Some b -> i < j -> lt a b = true.
Proof.
  induction 1 as [|u l S IH F]; intros [|i] [|j] a b Ha Hb H; try discriminate; try lia; cbn in Ha, Hb.
  - injection Ha as <-. rewrite Forall_forall in F. apply F. eapply nth_error_In; eauto.
  - eapply IH; eauto. lia.
Qed.
Lemma sorted_increasing l : StronglySorted L l -> increasing lt l.
Proof.
  intros S i j a b Ha Hb. split; [eapply sorted_lt; eauto|]. intros H. destruct (Nat.lt_trichotomy i j) as [|[E|H1]]; auto; exfalso.
  - subst j. assert (a = b) by congruence. subst b. rewrite (so_irrefl _ O) in H. discriminate.
  - pose proof (sorted_lt _ S _ _ _ _ Hb Ha H1) as H2. pose proof (so_trans _ O _ _ _ H H2) as H3. rewrite (so_irrefl _ O) in H3. discriminate.
Qed.
Lemma increasing_inj l : increasing lt l -> forall i j a, nth_error l i = Some a -> nth_error l j = Some a -> i = j.
Proof.
  intros I i j a Ha Hb. pose proof (I _ _ _ _ Ha Hb) as H1. pose proof (I _ _ _ _ Hb Ha) as H2. rewrite (so_irrefl _ O) in *.
  destruct (Nat.lt_trichotomy i j) as [H|[H|H]]; auto; exfalso; [apply H1 in H|apply H2 in H]; discriminate.
Qed.
Lemma code_ok l v i : label_code lt l v = Ok i -> nth_error l i = Some v.
Proof.
  revert i. induction l as [|w l IH]; intros i; cbn [label_code]; [discriminate|]. destruct (lt v w) eqn:E1; cbn [orb].
  - destruct (label_code lt l v) as [k|]; cbn [bind]; [|discriminate]. intros H. injection H as <-. cbn. apply IH. reflexivity.
  - destruct (lt w v) eqn:E2; cbn [orb].
    + destruct (label_code lt l v) as [k|]; cbn [bind]; [|discriminate]. intros H. injection H as <-. cbn. apply IH. reflexivity.
    + intros H. injection H as <-. cbn. f_equal. symmetry. apply (so_total _ O); assumption.
Qed.
Lemma code_in l v : (exists i, label_code lt l v = Ok i) <-> In v l.
Proof.
  induction l as [|w l IH]; cbn [label_code]; [split; [intros [i H]; discriminate H|intros []]|]. destruct (lt v w || lt w v) eqn:E.
  - destruct (label_code lt l v) as [k|]; cbn [bind].
    + split; [intros _; right; apply IH; eauto|eauto].
    + split; [intros [i H]; discriminate H|]. intros [H|H]; [subst w; rewrite (so_irrefl _ O) in E; discriminate E|apply IH in H; destruct H as [i H]; discriminate H].
  - apply orb_false_iff in E. destruct E as [E1 E2]. split; [intros _; left; symmetry; apply (so_total _ O); assumption|eauto].
Qed.
Lemma code_err l v e : label_code lt l v = Err e -> e = ValueError.
Proof. induction l as [|w l IH]; cbn [label_code]; [congruence|]. destruct (lt v w || lt w v); [|discriminate]. destruct (label_code lt l v); cbn [bind]; [discriminate|]. intros H. injection H as <-. auto. Qed.
Lemma encode_coded ys labels codes : encode lt (label_classes lt ys) labels = Ok codes <-> coded (label_classes lt ys) codes labels.
Proof.
  unfold encode, coded. rewrite map_res_F2. split; intros H.
  - induction H; constructor; auto. apply code_ok. assumption.
  - induction H as [|c v cs vs H1 H2 IH]; constructor; auto. destruct (proj2 (code_in (label_classes lt ys) v)) as [i Hi]; [eapply nth_error_In; eauto|]. rewrite Hi. f_equal.
    eapply increasing_inj; [apply sorted_increasing, classes_sorted|apply code_ok; exact Hi|exact H1].
Qed.
End Labels.

Lemma coded_entry {V} (classes : list V) codes some c : coded classes codes some -> In c codes -> exists v, nth_error classes c = Some v.
Proof. induction 1 as [|a b l m H1 H2 IH]; [intros []|]. intros [<-|H]; eauto. Qed.

(** The encoder numbers the distinct labels of the training data in increasing order, without gaps; it encodes exactly the lists of labels that occur
    there, and raises ValueError for others. *)
Theorem C81_labels : forall V (lt : V -> V -> bool) (labels : list V), strict_order lt -> let classes := label_classes lt labels in
  increasing lt classes /\ (forall v, In v classes <-> In v labels) /\
  (forall some codes, encode lt classes some = Ok codes <-> coded classes codes some) /\
  (forall some, (exists codes, encode lt classes some = Ok codes) <-> incl some labels) /\
  (forall some e, encode lt classes some = Err e -> e = ValueError) /\
  (labels <> [] -> forall codes, encode lt classes labels = Ok codes -> contiguous codes).
Proof.
  intros V lt labels O classes. split; [apply sorted_increasing; auto; apply classes_sorted; auto|]. split; [intros v; apply classes_in; auto|].
  split; [intros; apply encode_coded; auto|]. split.
  { intros some. unfold encode. rewrite map_res_all, Forall_forall. split; intros H v Hv; specialize (H v Hv); [apply (classes_in lt O), (code_in lt O); exact H|apply (code_in lt O), (classes_in lt O); exact H]. }
  split; [intros some e; apply map_res_only; intros a e1 _; apply code_err|].
  intros Hn codes E t Ht. apply encode_coded in E; auto. fold classes in E.
  assert (B : list_max codes < length classes).
  { destruct labels as [|v0 labels]; [contradiction|]. inversion E as [|c0 ? cs ? H1 H2]; subst. assert (F : Forall (fun c => c <= length classes - 1) (c0 :: cs)).
    { apply Forall_forall. intros c Hc. destruct (coded_entry _ _ _ _ E Hc) as [v Hv].
      assert (c < length classes) by (apply nth_error_Some; congruence). lia. }
    apply list_max_le in F. assert (c0 < length classes) by (apply nth_error_Some; congruence). lia. }
  destruct (nth_error classes t) as [v|] eqn:Ev; [|apply nth_error_None in Ev; lia].
  assert (Hv : In v labels) by (apply (classes_in lt O); eapply nth_error_In; exact Ev).
  clear - E Hv Ev O. assert (I : increasing lt classes) by (apply sorted_increasing; auto; apply classes_sorted; auto). revert E. generalize codes. clear codes.
  assert (P : forall ls, In v ls -> forall codes, coded classes codes ls -> In t codes).
  { intros ls Hl codes E. induction E as [|a b l m H1 H2 IH]; [destruct Hl|]. destruct Hl as [->|Hl]; [left; eapply increasing_inj; eauto|right; auto]. }
  intros codes E. eapply P; eauto.
Qed.
Print Assumptions C81_labels.

(** Only the order of the labels matters: renaming them in an order-preserving way changes no code. *)
Theorem C81_renaming : forall V W (lt : V -> V -> bool) (lt' : W -> W -> bool) (f : V -> W) labels some,
  (forall a b, In a (labels ++ some) -> In b (labels ++ some) -> lt' (f a) (f b) = lt a b) ->
  encode lt' (label_classes lt' (map f labels)) (map f some) = encode lt (label_classes lt labels) some.
Proof.
  intros V W lt lt' f labels some H.
  assert (I : forall v l, In v (labels ++ some) -> incl l (labels ++ some) -> insert_label lt' (f v) (map f l) = map f (insert_label lt v l)).
  { intros v l Hv. induction l as [|u l IH]; intros Hl; [reflexivity|]. cbn [map insert_label]. rewrite !H; auto; [|apply Hl; left; reflexivity..]. destruct (lt v u); [reflexivity|].
    destruct (lt u v); [|reflexivity]. cbn [map]. f_equal. apply IH. intros x Hx. apply Hl. right. exact Hx. }
  assert (N : forall v l w, In w (insert_label lt v l) -> w = v \/ In w l).
  { intros v l. induction l as [|u l IH]; intros w; cbn [insert_label]; [cbn; intuition|]. destruct (lt v u); [cbn; intuition|]. destruct (lt u v); [|cbn; intuition]. cbn [In]. intros [->|Hw]; auto. apply IH in Hw. intuition. }
  assert (C : forall ys, incl ys labels -> label_classes lt' (map f ys) = map f (label_classes lt ys) /\ incl (label_classes lt ys) ys).
  { induction ys as [|v ys IH]; intros Hy; [split; [reflexivity|intros x []]|]. destruct IH as [I1 I2]; [intros x Hx; apply Hy; right; exact Hx|]. unfold label_classes in *. cbn [map fold_right]. rewrite I1. split.
    - apply I; [apply in_or_app; left; apply Hy; left; reflexivity|]. intros x Hx. apply in_or_app. left. apply Hy. right. apply I2. exact Hx.
    - intros x Hx. apply N in Hx. destruct Hx as [->|Hx]; [left; reflexivity|right; auto]. }
  destruct (C labels (fun x Hx => Hx)) as [C1 C2]. rewrite C1. clear C C1 N I.
  assert (D : forall cs v, incl cs labels -> In v some -> label_code lt' (map f cs) (f v) = label_code lt cs v).
  { induction cs as [|w cs IH]; intros v Hc Hv; [reflexivity|]. cbn [map label_code]. assert (Hw : In w (labels ++ some)) by (apply in_or_app; left; apply Hc; left; reflexivity).
    assert (Hv' : In v (labels ++ some)) by (apply in_or_app; right; exact Hv). rewrite (H v w Hv' Hw), (H w v Hw Hv'), IH; auto. intros x Hx. apply Hc. right. exact Hx. }
  unfold encode. revert D. clear H. induction some as [|v some IH]; intros D; [reflexivity|]. cbn [map map_res]. rewrite D; [|exact C2|left; reflexivity]. rewrite IH; [reflexivity|]. intros cs u Hc Hu. apply D; [exact Hc|right; exact Hu].
Qed.
Print Assumptions C81_renaming.

(** The share of right codes is the share of right labels. *)
Theorem C81_accuracy : forall V (lt : V -> V -> bool) (labels some : list V) codes X assigns q, strict_order lt -> length X = length some ->
  encode lt (label_classes lt labels) some = Ok codes -> accuracy X codes assigns q ->
  exists rs, NoDup rs /\ (forall r, In r rs <-> exists x c v, nth_error X r = Some x /\ assigns x c /\ nth_error (label_classes lt labels) c = Some v /\ nth_error some r = Some v) /\
    (q * inject_Z (Z.of_nat (length X)) == inject_Z (Z.of_nat (length rs)))%Q.
Proof.
  intros V lt labels some codes X assigns q O Hx E (rs & [N R] & Hq). apply encode_coded in E; auto. exists rs. split; [exact N|]. split; [|exact Hq].
  assert (I : increasing lt (label_classes lt labels)) by (apply sorted_increasing; auto; apply classes_sorted; auto).
  assert (P : forall r, (forall c, nth_error codes r = Some c -> exists v, nth_error some r = Some v /\ nth_error (label_classes lt labels) c = Some v) /\
                        (forall v, nth_error some r = Some v -> exists c, nth_error codes r = Some c /\ nth_error (label_classes lt labels) c = Some v)).
  { clear - E. induction E as [|a b l m H1 H2 IH]; intros [|r]; cbn [nth_error]; try (split; discriminate); [|apply IH]. split; intros x Hx; injection Hx as <-; eauto. }
  intros r. rewrite R. split.
  - intros (x & c & H1 & H2 & H3). destruct (proj1 (P r) c H2) as (v & Hv & Hc). exists x, c, v. auto.
  - intros (x & c & v & H1 & H2 & H3 & H4). destruct (proj2 (P r) v H4) as (c' & H5 & H6). assert (c' = c) by (eapply increasing_inj; eauto). subst c'. exists x, c. auto.
Qed.
Print Assumptions C81_accuracy.

(** ** Tables *)
Lemma column_ok name names i : column name names = Ok i -> nth_error names i = Some name.
Proof.
  revert i. induction names as [|n ns IH]; intros i; cbn [column]; [discriminate|]. destruct (String.eqb_spec name n); [subst; intros H; injection H as <-; reflexivity|].
  destruct (column name ns); cbn [bind]; [|discriminate]. intros H. injection H as <-. cbn. auto.
Qed.
Lemma column_in name names : In name names -> exists i, column name names = Ok i.
Proof.
  induction names as [|n ns IH]; [intros []|]. intros H. cbn [column]. destruct (String.eqb_spec name n); [eauto|]. destruct H as [H|H]; [congruence|]. destruct (IH H) as [i ->]. cbn [bind]. eauto.
Qed.
Lemma column_err name names e : column name names = Err e -> e = KeyError /\ ~ In name names.
Proof.
  induction names as [|n ns IH]; cbn [column]; [intros H; injection H as <-; auto|]. destruct (String.eqb_spec name n); [discriminate|].
  destruct (column name ns); cbn [bind]; [discriminate|]. intros H. injection H as <-. destruct (IH eq_refl) as [-> H]. split; [reflexivity|]. intros [H1|H1]; [congruence|contradiction].
Qed.
Lemma features_iff {A} (l : list A) a : In a (removelast l) <-> exists i, S i < length l /\ nth_error l i = Some a.
Proof.
  induction l as [|x l IH]; [split; [intros []|intros (i & H & _); cbn in H; lia]|]. destruct l as [|y l].
  - split; [intros []|intros (i & H & _); cbn in H; lia].
  - cbn [removelast] in *. cbn [In]. rewrite IH. split.
    + intros [<-|(i & H1 & H2)]; [exists 0; cbn; split; [lia|reflexivity]|exists (S i); cbn in *; split; [lia|exact H2]].
    + intros ([|i] & H1 & H2); [left; cbn in H2; congruence|right; exists i; cbn in *; split; [lia|exact H2]].
Qed.
Section Tables.
Context {V : Type}.
Lemma select_ok features (t : table V) : proper t -> (forall f, In f features -> In f (tb_columns t)) ->
  exists X, select features t = Ok X /\ Forall2 (fun row x => Forall2 (in_column t row) features x) (tb_rows t) X.
Proof.
  intros (_ & _ & P) H. unfold select. destruct (proj2 (map_res_all (fun f => column f (tb_columns t)) features)) as [is Ei]; [apply Forall_forall; intros f Hf; apply column_in; auto|].
  rewrite Ei. cbn [bind]. apply map_res_F2 in Ei.
  assert (B : Forall2 (fun f i => nth_error (tb_columns t) i = Some f) features is) by (clear - Ei; induction Ei; constructor; auto; apply column_ok; assumption).
  assert (R : forall row, length row = length (tb_columns t) -> exists x, map_res (getitem row) is = Ok x /\ Forall2 (in_column t row) features x).
  { intros row Hr. clear - B Hr. induction B as [|f i fs is H B IH]; [exists []; split; [reflexivity|constructor]|]. destruct IH as (x & E1 & E2).
    destruct (nth_error row i) as [v|] eqn:Ev; [|exfalso; apply nth_error_None in Ev; assert (i < length (tb_columns t)) by (apply nth_error_Some; congruence); lia].
    exists (v :: x). cbn [map_res]. rewrite (proj2 (getitem_iff row i v) Ev). cbn [bind]. rewrite E1. cbn [bind]. split; [reflexivity|]. constructor; [exists i; auto|exact E2]. }
  clear - P R. induction (tb_rows t) as [|row rows IH]; [exists []; split; [reflexivity|constructor]|]. inversion P as [|? ? P1 P2]; subst. destruct (R row P1) as (x & E1 & E2). destruct (IH P2) as (X & E3 & E4).
  exists (x :: X). cbn [map_res]. rewrite E1. cbn [bind]. rewrite E3. cbn [bind]. split; [reflexivity|constructor; auto].
Qed.
Lemma select_missing features (t : table V) f : In f features -> ~ In f (tb_columns t) -> select features t = Err KeyError.
Proof.
  intros Hf Hn. unfold select. destruct (map_res (fun g => column g (tb_columns t)) features) as [is|e] eqn:E.
  - exfalso. apply Hn. apply map_res_F2 in E. clear - E Hf. induction E as [|g i gs is H1 H2 IH]; [destruct Hf|]. destruct Hf as [->|Hf]; [eapply nth_error_In, column_ok; exact H1|auto].
  - cbn [bind]. f_equal. eapply map_res_only; [|exact E]. intros g e1 _ H. cbv beta in H. apply column_err in H. apply H.
Qed.
Lemma last_ok (t : table V) : proper t -> exists ys, last_column t = Ok ys /\ Forall2 (in_last t) (tb_rows t) ys.
Proof.
  intros (P0 & _ & P). unfold last_column, in_last. destruct (tb_columns t) as [|c cs] eqn:Ec; [cbn in P0; lia|]. rewrite <- Ec in *. clear Ec.
  induction (tb_rows t) as [|row rows IH]; [exists []; split; [reflexivity|constructor]|]. inversion P as [|? ? P1 P2]; subst. destruct (IH P2) as (ys & E1 & E2).
  destruct (nth_error row (length (tb_columns t) - 1)) as [v|] eqn:Ev; [|exfalso; apply nth_error_None in Ev; lia].
  exists (v :: ys). cbn [map_res]. rewrite (proj2 (getitem_iff row _ v) Ev). cbn [bind]. rewrite E1. cbn [bind]. split; [reflexivity|constructor; auto].
Qed.
Lemma F2_in {A B} (R : A -> B -> Prop) l m : Forall2 R l m -> (forall b, In b m -> exists a, In a l /\ R a b) /\ (forall a, In a l -> exists b, In b m /\ R a b).
Proof.
  induction 1 as [|a b l m H1 H2 [I1 I2]]; [split; intros ? []|]. split.
  - intros c [<-|Hc]; [exists a; split; [left; reflexivity|exact H1]|]. destruct (I1 c Hc) as (d & Hd & Hr). exists d. split; [right; exact Hd|exact Hr].
  - intros c [<-|Hc]; [exists b; split; [left; reflexivity|exact H1]|]. destruct (I2 c Hc) as (d & Hd & Hr). exists d. split; [right; exact Hd|exact Hr].
Qed.
End Tables.
Lemma numbers_ok {V F} (sy : system V F) X : (exists Y, map_res (map_res (number sy)) X = Ok Y) <-> (forall x v, In x X -> In v x -> exists q, sy_num sy v = Some q).
Proof.
  rewrite map_res_all, Forall_forall. split; intros H x.
  - intros v Hx Hv. specialize (H x Hx). apply map_res_all in H. rewrite Forall_forall in H. destruct (H v Hv) as [q Hq]. unfold number in Hq. destruct (sy_num sy v); [eauto|discriminate].
  - intros Hx. apply map_res_all. apply Forall_forall. intros v Hv. destruct (H x v Hx Hv) as [q Hq]. unfold number. rewrite Hq. eauto.
Qed.
Lemma numbers_value {V F} (sy : system V F) (t : table V) fs rows X Y : Forall2 (fun row x => Forall2 (in_column t row) fs x) rows X -> map_res (map_res (number sy)) X = Ok Y ->
  Forall2 (fun row y => Forall2 (fun f q => exists v, in_column t row f v /\ sy_num sy v = Some q) fs y) rows Y.
Proof.
  intros H. revert Y. induction H as [|row x rows X H1 H2 IH]; intros Y E; cbn [map_res] in E; [injection E as <-; constructor|].
  destruct (map_res (number sy) x) as [y|] eqn:E1; [|discriminate]. cbn [bind] in E. destruct (map_res (map_res (number sy)) X) as [Y'|]; [|discriminate]. cbn [bind] in E. injection E as <-.
  constructor; [|apply IH; reflexivity]. clear - E1 H1. revert y E1. induction H1 as [|f v fs x H1 H2 IH]; intros y E; cbn [map_res] in E; [injection E as <-; constructor|].
  unfold number at 1 in E. destruct (sy_num sy v) as [q|] eqn:Eq; [|discriminate]. cbn [bind] in E. destruct (map_res (number sy) x) as [y'|]; [|discriminate]. cbn [bind] in E. injection E as <-. constructor; eauto.
Qed.
Lemma numbers_err {V F} (sy : system V F) X e : map_res (map_res (number sy)) X = Err e -> e = ValueError.
Proof. apply map_res_only. intros x e1 _. apply map_res_only. intros v e2 _. unfold number. destruct (sy_num sy v); congruence. Qed.

(** The data main trains on.  Features are matched by the names of the columns, labels are the last columns. *)
Theorem C81_data : forall V F (sy : system V F) depth train test, strict_order (sy_ltb sy) -> proper train -> proper test ->
  ((exists wd, prepare_data sy depth train test = Ok wd) <-> usable (sy_num sy) depth train test) /\
  (forall wd, prepare_data sy depth train test = Ok wd ->
     samples_of (sy_num sy) train train (wd_X wd) /\ samples_of (sy_num sy) train test (wd_Xt wd) /\
     exists classes, increasing (sy_ltb sy) classes /\ (forall v, In v classes <-> exists row, In row (tb_rows train) /\ in_last train row v) /\
       labels_of classes train (wd_y wd) /\ labels_of classes test (wd_yt wd) /\ (tb_rows train <> [] -> contiguous (wd_y wd))).
Proof.
  intros V F sy depth train test O P Pt. unfold prepare_data, load.
  assert (F0 : forall f, In f (removelast (tb_columns train)) <-> is_feature train f) by (intros f; apply features_iff).
  destruct (select_ok (removelast (tb_columns train)) train P) as (X & EX & HX). { intros f Hf. apply features_iff in Hf. destruct Hf as (i & _ & Hi). eapply nth_error_In; exact Hi. }
  rewrite EX. cbn [bind]. destruct (last_ok train P) as (y & Ey & Hy). rewrite Ey. cbn [bind].
  set (classes := label_classes (sy_ltb sy) y). destruct (C81_labels V (sy_ltb sy) y O) as (L1 & L2 & L3 & L4 & L5 & L6). fold classes in L1, L2, L3, L4, L5, L6.
  assert (D : (forall f, In f (removelast (tb_columns train)) -> In f (tb_columns test)) \/ exists f, In f (removelast (tb_columns train)) /\ ~ In f (tb_columns test)).
  { induction (removelast (tb_columns train)) as [|f fs IH] in |- *; [left; intros ? []|]. destruct (in_dec string_dec f (tb_columns test)) as [Hf|Hf]; [|right; exists f; split; [left; reflexivity|exact Hf]].
    destruct IH as [IH|(g & Hg & Hn)]; [left; intros g [<-|Hg]; auto|right; exists g; split; [right; exact Hg|exact Hn]]. }
  destruct D as [D|(f & Hf & Hn)].
  2: { rewrite (select_missing _ _ f Hf Hn). cbn [bind]. split; [|discriminate]. split; [intros [wd H]; discriminate H|]. intros U. exfalso. apply Hn. apply (us_columns _ _ _ _ U). apply F0. exact Hf. }
  destruct (select_ok (removelast (tb_columns train)) test Pt D) as (Xt & EXt & HXt). rewrite EXt. cbn [bind]. destruct (last_ok test Pt) as (yt & Eyt & Hyt). rewrite Eyt. cbn [bind].
  fold classes. destruct (proj2 (L4 y) (fun v H => H)) as [ye Eye]. rewrite Eye. cbn [bind].
  destruct (F2_in _ _ _ Hy) as [Y1 Y2]. destruct (F2_in _ _ _ Hyt) as [Yt1 Yt2].
  destruct (encode (sy_ltb sy) classes yt) as [yte|e] eqn:Eyte; cbn [bind].
  2: { split; [|discriminate]. split; [intros [wd H]; discriminate H|]. intros U. exfalso. destruct (proj2 (L4 yt)) as [c Hc]; [|congruence]. intros v Hv. destruct (Yt1 v Hv) as (row & Hr & Hl).
       destruct (us_labels _ _ _ _ U row v Hr Hl) as (row' & Hr' & Hl'). destruct (Y2 row' Hr') as (w & Hw & Hlw). unfold in_last in Hl', Hlw. congruence. }
  destruct (Z.ltb_spec depth 0). { split; [|discriminate]. split; [intros [wd H0]; discriminate H0|intros U; pose proof (us_depth _ _ _ _ U); lia]. }
  destruct (Z.eqb_spec depth 0). { split; [|discriminate]. split; [intros [wd H0]; discriminate H0|intros U; pose proof (us_depth _ _ _ _ U); lia]. }
  assert (Lab : forall row v, In row (tb_rows test) -> in_last test row v -> exists row', In row' (tb_rows train) /\ in_last train row' v).
  { intros row v Hr Hl. destruct (Yt2 row Hr) as (w & Hw & Hlw). assert (w = v) by (unfold in_last in *; congruence). subst w. apply Y1. apply (proj1 (L4 yt) (ex_intro _ yte Eyte)). exact Hw. }
  assert (G : forall t Z, Forall2 (fun row x => Forall2 (in_column t row) (removelast (tb_columns train)) x) (tb_rows t) Z -> proper t ->
     ((exists Y, map_res (map_res (number sy)) Z = Ok Y) <-> (forall row f v, In row (tb_rows t) -> is_feature train f -> in_column t row f v -> exists q, sy_num sy v = Some q))).
  { intros t Z HZ (_ & Nd & _). rewrite numbers_ok. split; intros H1.
    - intros row f v Hr Hf Hv. destruct (F2_in _ _ _ HZ) as [_ G2]. destruct (G2 row Hr) as (x & Hx & Hrx). destruct (F2_in _ _ _ Hrx) as [_ G3]. destruct (G3 f (proj2 (F0 f) Hf)) as (w & Hw & Hc).
      assert (w = v). { destruct Hv as (i & Hi1 & Hi2), Hc as (j & Hj1 & Hj2). assert (i = j); [|congruence]. eapply NoDup_nth_error; [exact Nd|apply nth_error_Some; congruence|congruence]. }
      subst w. eauto.
    - intros x v Hx Hv. destruct (F2_in _ _ _ HZ) as [G2 _]. destruct (G2 x Hx) as (row & Hr & Hrx). destruct (F2_in _ _ _ Hrx) as [G3 _]. destruct (G3 v Hv) as (f & Hf & Hc). apply F0 in Hf. eauto. }
  pose proof (G train X HX P) as G1. pose proof (G test Xt HXt Pt) as G2. clear G.
  destruct (map_res (map_res (number sy)) X) as [Xn|e] eqn:EXn; cbn [bind].
  2: { split; [|discriminate]. split; [intros [wd H0]; discriminate H0|]. intros U. exfalso. destruct (proj2 G1) as [Y HY]; [|discriminate HY]. intros row f v. apply (us_numbers _ _ _ _ U). left. reflexivity. }
  destruct (map_res (map_res (number sy)) Xt) as [Xtn|e] eqn:EXtn; cbn [bind].
  2: { split; [|discriminate]. split; [intros [wd H0]; discriminate H0|]. intros U. exfalso. destruct (proj2 G2) as [Y HY]; [|discriminate HY]. intros row f v. apply (us_numbers _ _ _ _ U). right. reflexivity. }
  split.
  - split; [intros _|intros _; eauto]. constructor; [lia|intros f Hf; apply D, F0; exact Hf|exact Lab|]. intros t row f v [->| ->]; [apply G1; eauto|apply G2; eauto].
  - intros wd Ewd. injection Ewd as <-. cbn [wd_X wd_Xt wd_y wd_yt]. split; [eapply numbers_value; eauto|]. split; [eapply numbers_value; eauto|]. exists classes. split; [exact L1|]. split.
    { intros v. rewrite L2. split; [apply Y1|]. intros (row & Hr & Hl). destruct (Y2 row Hr) as (w & Hw & Hlw). unfold in_last in *. congruence. }
    assert (K : forall t ys cs, Forall2 (in_last t) (tb_rows t) ys -> coded classes cs ys -> labels_of classes t cs).
    { intros t ys cs H1 H2. unfold labels_of. revert cs H2. induction H1 as [|row v rows vs H1 H3 IH]; intros cs H2; inversion H2; subst; constructor; eauto. }
    split; [eapply K; [exact Hy|apply L3; exact Eye]|]. split; [eapply K; [exact Hyt|apply L3; exact Eyte]|].
    intros Hn. apply L6; [|exact Eye]. intros ->. inversion Hy. congruence.
Qed.
Print Assumptions C81_data.

(** Which exception unusable data raise. *)
Theorem C81_failures : forall V F (sy : system V F) depth train test, strict_order (sy_ltb sy) -> proper train -> proper test ->
  let r := prepare_data sy depth train test in
  let columns := forall f, is_feature train f -> In f (tb_columns test) in
  let labels := forall row v, In row (tb_rows test) -> in_last test row v -> exists row', In row' (tb_rows train) /\ in_last train row' v in
  ((exists f, is_feature train f /\ ~ In f (tb_columns test)) -> r = Err KeyError) /\
  (columns -> ~ labels -> r = Err ValueError) /\
  (columns -> labels -> (depth < 0)%Z -> r = Err TypeError) /\ (columns -> labels -> depth = 0%Z -> r = Err ZeroDivisionError) /\
  (columns -> labels -> (0 < depth)%Z -> forall e, r = Err e -> e = ValueError).
Proof.
  intros V F sy depth train test O P Pt r columns labels. unfold columns, labels, r, prepare_data, load. clear columns labels r.
  assert (F0 : forall f, In f (removelast (tb_columns train)) <-> is_feature train f) by (intros f; apply features_iff).
  destruct (select_ok (removelast (tb_columns train)) train P) as (X & EX & HX). { intros f Hf. apply features_iff in Hf. destruct Hf as (i & _ & Hi). eapply nth_error_In; exact Hi. }
  rewrite EX. cbn [bind]. destruct (last_ok train P) as (y & Ey & Hy). rewrite Ey. cbn [bind]. split.
  { intros (f & Hf & Hn). rewrite (select_missing _ _ f (proj2 (F0 f) Hf) Hn). reflexivity. }
  set (classes := label_classes (sy_ltb sy) y). destruct (C81_labels V (sy_ltb sy) y O) as (L1 & L2 & L3 & L4 & L5 & L6). fold classes in L1, L2, L3, L4, L5, L6.
  destruct (F2_in _ _ _ Hy) as [Y1 Y2]. destruct (last_ok test Pt) as (yt & Eyt & Hyt). destruct (F2_in _ _ _ Hyt) as [Yt1 Yt2].
  assert (Q : (forall f, is_feature train f -> In f (tb_columns test)) -> exists Xt, select (removelast (tb_columns train)) test = Ok Xt).
  { intros D. destruct (select_ok (removelast (tb_columns train)) test Pt) as (Xt & EXt & _); [intros f Hf; apply D, F0; exact Hf|eauto]. }
  destruct (proj2 (L4 y) (fun v H => H)) as [ye Eye].
  assert (Lab : (exists c, encode (sy_ltb sy) classes yt = Ok c) <-> (forall row v, In row (tb_rows test) -> in_last test row v -> exists row', In row' (tb_rows train) /\ in_last train row' v)).
  { rewrite L4. split.
    - intros I row v Hr Hl. destruct (Yt2 row Hr) as (w & Hw & Hlw). assert (w = v) by (unfold in_last in *; congruence). subst w. apply Y1, I. exact Hw.
    - intros I v Hv. destruct (Yt1 v Hv) as (row & Hr & Hl). destruct (I row v Hr Hl) as (row' & Hr' & Hl'). destruct (Y2 row' Hr') as (w & Hw & Hlw). unfold in_last in Hl', Hlw. congruence. }
  repeat split; intros C; destruct (Q C) as [Xt ->]; cbn [bind]; rewrite Eyt; cbn [bind]; fold classes; rewrite Eye; cbn [bind].
  - intros N. destruct (encode (sy_ltb sy) classes yt) as [c|e] eqn:E; [exfalso; apply N; apply Lab; eauto|]. cbn [bind]. f_equal. eapply L5; exact E.
  - intros I H. apply Lab in I. destruct I as [c ->]. cbn [bind]. destruct (Z.ltb_spec depth 0); [reflexivity|lia].
  - intros I ->. apply Lab in I. destruct I as [c ->]. reflexivity.
  - intros I H e. apply Lab in I. destruct I as [c ->]. cbn [bind]. destruct (Z.ltb_spec depth 0); [lia|]. destruct (Z.eqb_spec depth 0); [lia|].
    destruct (map_res (map_res (number sy)) X) as [Xn|e1] eqn:E1; cbn [bind]; [|intros H1; injection H1 as <-; eapply numbers_err; exact E1].
    destruct (map_res (map_res (number sy)) Xt) as [Xtn|e1] eqn:E2; cbn [bind]; [discriminate|intros H1; injection H1 as <-; eapply numbers_err; exact E2].
Qed.
Print Assumptions C81_failures.

(** Usable data with at least two classes are what the theorems about training ask for, given CART trees for them. *)
Theorem C81_input : forall V F (sy : system V F) s train test wd, strict_order (sy_ltb sy) -> proper train -> proper test -> prepare_data sy (st_depth s) train test = Ok wd ->
  tb_rows test <> [] -> (exists row row' v v', In row (tb_rows train) /\ In row' (tb_rows train) /\ in_last train row v /\ in_last train row' v' /\ v <> v') ->
  (let d := Z.to_nat (st_depth s) in let m := length (tb_columns train) - 1 in
   (forall i, cart_for d m (wd_first wd i)) /\ cart_for d m (wd_final wd) /\ (forall i, cart_for d m (wd_more wd i)) /\ exists h, has_test (wd_final wd) h) ->
  script_input wd (options_of s).
Proof.
  intros V F sy s train test wd O P Pt E Ht (row & row' & v & v' & R1 & R2 & R3 & R4 & Hv) (C1 & C2 & C3 & C4).
  destruct (C81_data V F sy (st_depth s) train test O P Pt) as [U D]. pose proof (proj1 U (ex_intro _ wd E)) as Us. destruct (D wd E) as (S1 & S2 & classes & I & Hc & L1 & L2 & Cy). clear D U.
  assert (Hr : tb_rows train <> []) by (intros H; rewrite H in R1; destruct R1).
  assert (E1 : length (tb_rows train) = length (wd_X wd)) by exact (F2_len _ _ _ S1). assert (E2 : length (tb_rows test) = length (wd_Xt wd)) by exact (F2_len _ _ _ S2). pose proof (F2_len _ _ _ L1) as E3. pose proof (F2_len _ _ _ L2) as E4.
  assert (W : forall t X, samples_of (sy_num sy) train t X -> Forall (fun x => length x = length (tb_columns train) - 1) X).
  { intros t X HS. unfold samples_of in HS. apply Forall_forall. intros x Hx. destruct (F2_in _ _ _ HS) as [G _]. destruct (G x Hx) as (rw & _ & Hrw). apply F2_len in Hrw. rewrite <- Hrw.
    clear. induction (tb_columns train) as [|a l IH]; [reflexivity|]. destruct l as [|b l]; [reflexivity|]. cbn [removelast length] in *. rewrite IH. lia. }
  constructor.
  - cbn [options_of op_depth]. pose proof (us_depth _ _ _ _ Us). lia.
  - rewrite <- E1, <- E2. destruct (tb_rows train); [contradiction|]. destruct (tb_rows test); [contradiction|]. cbn. lia.
  - lia.
  - exists (length (tb_columns train) - 1). split; [apply Forall_app; split; eapply W; eauto|]. auto.
  - exact C4.
  - split; [auto|]. destruct (F2_in _ _ _ L1) as [_ G]. destruct (G row R1) as (a & Ha & w & Hw & Hca). destruct (G row' R2) as (b & Hb & w' & Hw' & Hcb). exists a, b. split; [exact Ha|]. split; [exact Hb|].
    intros ->. unfold in_last in *. congruence.
Qed.
Print Assumptions C81_input.
