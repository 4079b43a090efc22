(** C89: the tree classifier sees the data only through the sides of the splits. *)
From Verif Require Import Base Lp FitModel TreeModel TreePricingModel TreeFitModel SpecTreeTrain TreeCheck TreeHonestProofs PropTreeLp PropTreeCert PropTreePrice PropTreeFit PropTreeTrain.
From Verif Require Import SpecTwin RelProofs TwinProofs.
Open Scope nat_scope.

(** Two problems whose splits test other features or thresholds, kept in the same order, with samples on the same sides: construction, every
    training and every prediction come out the same. *)
Theorem C89_twins : forall sv clk A splits', twins (ta_splits A) splits' -> alike sv clk A (args_with A splits') (same_sides (ta_splits A) splits').
Proof. exact alike_twins. Qed.
Print Assumptions C89_twins.

Lemma F2_mono {A B} (P P' : A -> B -> Prop) l l' : (forall a b, P a b -> P' a b) -> Forall2 P l l' -> Forall2 P' l l'.
Proof. intros H F. induction F; constructor; auto. Qed.
Lemma in_step_mono sv clk A A' (R1 R2 : sample -> sample -> Prop) : (forall x x', R1 x x' -> R2 x x') -> forall s s', in_step sv clk A A' R1 s s' -> in_step sv clk A A' R2 s s'.
Proof.
  intros H s s' I. induction I as [w w' E E'|s s' X X' y fuel t t' I IH F E E']; [apply step_new; auto|]. apply (step_fit sv clk A A' R2 s s' X X' y fuel t t'); auto. eapply F2_mono; [exact H|exact F].
Qed.
Lemma alike_mono sv clk A A' (R1 R2 : sample -> sample -> Prop) : (forall x x', R1 x x' -> R2 x x') -> alike sv clk A A' R2 -> alike sv clk A A' R1.
Proof.
  intros H [a1 a2 a3 a4]. pose proof (in_step_mono sv clk A A' R1 R2 H) as M. split; auto.
  - intros s s' X X' y fuel I F. apply a2; auto. eapply F2_mono; [exact H|exact F].
  - intros s s' L classes Xs Xs' I F. apply a4; auto. eapply F2_mono; [exact H|exact F].
Qed.
Lemma Forall2_map_r {A B} (P : A -> B -> Prop) (h : A -> B) l : (forall a, In a l -> P a (h a)) -> Forall2 P l (map h l).
Proof. intros H. induction l as [|a l IH]; cbn [map]; constructor; [apply H; left; reflexivity|]. apply IH. intros b Hb. apply H. right. exact Hb. Qed.

(** Every feature may be rewritten by a strictly increasing function: other units, logarithms, ranks. *)
Theorem C89_increasing : forall sv clk A (g : nat -> Q -> Q), (forall f a b, (a <= b)%Q <-> (g f a <= g f b)%Q) ->
  alike sv clk A (args_with A (rewrite_splits g (ta_splits A))) (rewritten g).
Proof.
  intros sv clk A g Hg. eapply alike_mono; [|apply C89_twins].
  - intros x x' [Hl Hx]. apply Forall2_map_r. intros s _. unfold side. cbn [with_test s_feature s_threshold]. destruct (nth_error x (s_feature s)) as [v|] eqn:E.
    + rewrite (Hx _ _ E). f_equal. apply eq_true_iff_eq. rewrite !Qle_bool_iff. apply Hg.
    + assert (E' : nth_error x' (s_feature s) = None) by (apply nth_error_None; rewrite Hl; apply nth_error_None; exact E). rewrite E'. reflexivity.
  - split.
    + apply Forall2_map_r. intros s _. reflexivity.
    + intros i j a b a' b' Ha Hb Ha' Hb'. unfold rewrite_splits in Ha', Hb'. rewrite nth_error_map, Ha in Ha'. rewrite nth_error_map, Hb in Hb'. injection Ha' as <-. injection Hb' as <-.
      reflexivity.
    + intros i j a b a' b' Ha Hb Ha' Hb' Ef. unfold rewrite_splits in Ha', Hb'. rewrite nth_error_map, Ha in Ha'. rewrite nth_error_map, Hb in Hb'. injection Ha' as <-. injection Hb' as <-.
      cbn [with_test s_threshold]. rewrite Ef. specialize (Hg (s_feature b) (s_threshold b) (s_threshold a)). split; intros H; apply Qnot_le_lt; intros C; apply Hg in C; lra.
Qed.
Print Assumptions C89_increasing.

(** The columns of the data may be put in another order, with the splits following them, and columns no split tests may be added. *)
Theorem C89_reordered : forall sv clk A (to : nat -> nat), (forall f f', to f = to f' -> f = f') -> alike sv clk A (args_with A (move_splits to (ta_splits A))) (moved to).
Proof.
  intros sv clk A to Hto. eapply alike_mono; [|apply C89_twins].
  - intros x x' Hx. apply Forall2_map_r. intros s _. unfold side. cbn [with_test s_feature s_threshold]. rewrite Hx. reflexivity.
  - split.
    + apply Forall2_map_r. intros s _. reflexivity.
    + intros i j a b a' b' Ha Hb Ha' Hb'. unfold move_splits in Ha', Hb'. rewrite nth_error_map, Ha in Ha'. rewrite nth_error_map, Hb in Hb'. injection Ha' as <-. injection Hb' as <-.
      cbn [with_test s_feature]. split; [intros ->; reflexivity|apply Hto].
    + intros i j a b a' b' Ha Hb Ha' Hb' _. unfold move_splits in Ha', Hb'. rewrite nth_error_map, Ha in Ha'. rewrite nth_error_map, Hb in Hb'. injection Ha' as <-. injection Hb' as <-.
      reflexivity.
Qed.
Print Assumptions C89_reordered.

(** With the same splits: samples that no split tells apart may replace each other, in training and in prediction. *)
Theorem C89_sides : forall sv clk A, alike sv clk A A (no_split_between (ta_splits A)).
Proof.
  intros sv clk A. assert (E : A = args_with A (ta_splits A)) by (destruct A; reflexivity). rewrite E at 2. eapply alike_mono; [|apply C89_twins].
  - intros x x' Hx. rewrite <- (map_id (ta_splits A)) at 2. apply Forall2_map_r. exact Hx.
  - split.
    + rewrite <- (map_id (ta_splits A)) at 2. apply Forall2_map_r. intros s _. destruct s; reflexivity.
    + intros i j a b a' b' Ha Hb Ha' Hb'. rewrite Ha in Ha'. rewrite Hb in Hb'. injection Ha' as <-. injection Hb' as <-. reflexivity.
    + intros i j a b a' b' Ha Hb Ha' Hb' _. rewrite Ha in Ha'. rewrite Hb in Hb'. injection Ha' as <-. injection Hb' as <-. reflexivity.
Qed.
Print Assumptions C89_sides.

(** The estimator of the C51 example with the data in other units (10 v + 7), with the column moved behind two others, and with other values
    between the thresholds; each of the three is trained, and predicts what the original predicts. *)
Definition units (f : nat) (v : Q) : Q := (10 * v + 7)%Q.
Definition twin_fit (A : targs) (X : list sample) : option (fstate tworld tduals path) :=
  match dtree_init A with
  | Ok w => match tree_fit (enumerating ex1_x ex1_pi) A (fun _ => 0%Q) X ex1_y 3 (new_estimator w) with (s, Done tt) => Some s | _ => None end
  | Err _ => None end.
Lemma twin_in_step A A' R X X' s s' : Forall2 R X X' -> twin_fit A X = Some s -> twin_fit A' X' = Some s' -> in_step (enumerating ex1_x ex1_pi) (fun _ => 0%Q) A A' R s s'.
Proof.
  unfold twin_fit. intros F H H'. destruct (dtree_init A) as [w|] eqn:E; [|discriminate]. destruct (dtree_init A') as [w'|] eqn:E'; [|discriminate].
  destruct (tree_fit _ A _ _ _ _ _) as [t [[]| |]] eqn:Et; try discriminate. destruct (tree_fit _ A' _ _ _ _ _) as [t' [[]| |]] eqn:Et'; try discriminate.
  injection H as <-. injection H' as <-. eapply step_fit; [apply step_new; eassumption|exact F|exact Et|exact Et'].
Qed.
Definition C89_trained (A' : targs) (R : sample -> sample -> Prop) (X' : list sample) : Prop := exists s s',
  in_step (enumerating ex1_x ex1_pi) (fun _ => 0%Q) (ex1_args 1 false) A' R s s' /\ f_trace s <> [] /\ Forall2 R ex1_X X' /\ tree_predict A' [0; 1] s' X' = Ok [0; 1; 1].
Lemma trained_case A' R X' : Forall2 R ex1_X X' ->
  match twin_fit (ex1_args 1 false) ex1_X, twin_fit A' X' with Some s, Some s' => (length (f_trace s) =? 0) = false /\ tree_predict A' [0; 1] s' X' = Ok [0; 1; 1] | _, _ => False end ->
  C89_trained A' R X'.
Proof.
  intros F V. destruct (twin_fit (ex1_args 1 false) ex1_X) as [s|] eqn:E; [|contradiction]. destruct (twin_fit A' X') as [s'|] eqn:E'; [|contradiction]. destruct V as [V1 V2].
  exists s, s'. split; [eapply twin_in_step; eassumption|]. split; [intros C; rewrite C in V1; discriminate V1|]. split; [exact F|exact V2].
Qed.
Example C89_case : (forall f a b, (a <= b)%Q <-> (units f a <= units f b)%Q) /\
  C89_trained (args_with (ex1_args 1 false) (rewrite_splits units (ta_splits (ex1_args 1 false)))) (rewritten units) [[10 * 0 + 7]; [10 * 1 + 7]; [10 * 2 + 7]]%Q /\
  C89_trained (args_with (ex1_args 1 false) (move_splits (plus 2) (ta_splits (ex1_args 1 false)))) (moved (plus 2)) [[8; 9; 0]; [8; 8; 1]; [5; 9; 2]]%Q /\
  C89_trained (ex1_args 1 false) (no_split_between (ta_splits (ex1_args 1 false))) [[-5]; [11 # 10]; [70]]%Q.
Proof.
  split; [intros f a b; unfold units; split; intros; lra|]. split; [|split].
  - apply trained_case; [|vm_compute; split; reflexivity]. repeat constructor; intros [|f] v H; try (injection H as <-; reflexivity); destruct f; discriminate.
  - apply trained_case; [|vm_compute; split; reflexivity]. repeat constructor.
  - apply trained_case; [|vm_compute; split; reflexivity]. repeat constructor; intros s [<-|[<-|[]]]; reflexivity.
Qed.
