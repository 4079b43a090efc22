(** Common vocabulary of the models: exceptions as values, Python list access,
    sums over lists.  Nothing here is specific to col_gen_estimator. *)
From Coq Require Export List Arith ZArith QArith Qabs Lia Bool Permutation.
From Coq Require Export Lqa.
From Coq Require Import Setoid Morphisms.
Export ListNotations.
Open Scope nat_scope.

(** Python exceptions the modelled code can raise. *)
Inductive exn :=
| AssertionError | IndexError | KeyError | ValueError | ZeroDivisionError | TypeError
| AttributeError.

(** The outcome of a Python call. *)
Inductive res (A : Type) :=
| Ok (a : A)
| Err (e : exn).
Arguments Ok {A} a.
Arguments Err {A} e.

Definition bind {A B} (x : res A) (f : A -> res B) : res B :=
  match x with Ok a => f a | Err e => Err e end.

Notation "'let*' x ':=' e 'in' f" := (bind e (fun x => f))
  (at level 200, x pattern, e at level 100, f at level 200, right associativity).

(** [assert b] *)
Definition assert (b : bool) : res unit := if b then Ok tt else Err AssertionError.

(** Python [l[i]] for a non-negative index. *)
Definition getitem {A} (l : list A) (i : nat) : res A :=
  match nth_error l i with Some a => Ok a | None => Err IndexError end.

(** A Python [for x in l: body] threading a state; an exception ends the loop. *)
Fixpoint for_each {A S} (l : list A) (body : A -> S -> res S) (s : S) : res S :=
  match l with
  | [] => Ok s
  | x :: xs => let* s1 := body x s in for_each xs body s1
  end.

(** [[f(x) for x in l]] where [f] may raise. *)
Fixpoint map_res {A B} (f : A -> res B) (l : list A) : res (list B) :=
  match l with
  | [] => Ok []
  | x :: xs => let* y := f x in let* ys := map_res f xs in Ok (y :: ys)
  end.

(** Replace position [i] of a list (no effect when out of range). *)
Fixpoint set_nth {A} (l : list A) (i : nat) (a : A) : list A :=
  match l, i with
  | [], _ => []
  | _ :: xs, 0 => a :: xs
  | x :: xs, S j => x :: set_nth xs j a
  end.

(** [x in l] for a list of naturals. *)
Definition memb (x : nat) (l : list nat) : bool := existsb (Nat.eqb x) l.

(** [set.add] on a set of naturals represented as a duplicate-free list. *)
Definition set_add (x : nat) (l : list nat) : list nat :=
  if memb x l then l else l ++ [x].

(** [set.intersection] *)
Definition set_inter (l m : list nat) : list nat := filter (fun x => memb x m) l.

(** Update of a total map. *)
Definition upd {A} (f : nat -> A) (i : nat) (a : A) : nat -> A :=
  fun j => if j =? i then a else f j.

(** Sum of a rational function over a list. *)
Definition qsum {A} (f : A -> Q) (l : list A) : Q :=
  fold_right (fun a acc => f a + acc)%Q 0%Q l.

Definition nsum {A} (f : A -> nat) (l : list A) : nat :=
  fold_right (fun a acc => f a + acc) 0 l.

(** Strict comparison on [Q] as a boolean: Python [a < b]. *)
Definition Qltb (a b : Q) : bool := negb (Qle_bool b a).

(** * Generic facts *)

Lemma Qltb_true a b : Qltb a b = true <-> (a < b)%Q.
Proof.
  unfold Qltb. rewrite negb_true_iff. split; intros H.
  - apply Qnot_le_lt. intros Hle. apply Qle_bool_iff in Hle. congruence.
  - destruct (Qle_bool b a) eqn:E; [|reflexivity].
    apply Qle_bool_iff in E. lra.
Qed.

Lemma Qltb_false a b : Qltb a b = false <-> (b <= a)%Q.
Proof.
  unfold Qltb. rewrite negb_false_iff. apply Qle_bool_iff.
Qed.

Lemma Qle_bool_false a b : Qle_bool a b = false <-> (b < a)%Q.
Proof.
  split; intros H.
  - apply Qnot_le_lt. intros Hle. apply Qle_bool_iff in Hle. congruence.
  - destruct (Qle_bool a b) eqn:E; [|reflexivity]. apply Qle_bool_iff in E. lra.
Qed.

Lemma memb_In x l : memb x l = true <-> In x l.
Proof.
  unfold memb. rewrite existsb_exists. split.
  - intros [y [Hy E]]. apply Nat.eqb_eq in E. subst; auto.
  - intros H. exists x. split; [auto|apply Nat.eqb_refl].
Qed.

Lemma memb_false x l : memb x l = false <-> ~ In x l.
Proof.
  rewrite <- memb_In. destruct (memb x l); split; intros; try congruence; tauto.
Qed.

Lemma set_add_In x y l : In y (set_add x l) <-> y = x \/ In y l.
Proof.
  unfold set_add. destruct (memb x l) eqn:E.
  - apply memb_In in E. split; [auto|]. intros [->|H]; auto.
  - rewrite in_app_iff. simpl. split; intros H; intuition auto.
Qed.

Lemma NoDup_snoc {A} (l : list A) x : NoDup l -> ~ In x l -> NoDup (l ++ [x]).
Proof.
  induction l as [|a l IH]; simpl; intros HN HI.
  - constructor; [easy|constructor].
  - inversion HN; subst. constructor.
    + rewrite in_app_iff. simpl. intuition congruence.
    + apply IH; auto.
Qed.

Lemma set_add_NoDup x l : NoDup l -> NoDup (set_add x l).
Proof.
  unfold set_add. destruct (memb x l) eqn:E; [auto|].
  intros H. apply NoDup_snoc; [auto|]. apply memb_false; auto.
Qed.

Lemma set_inter_In x l m : In x (set_inter l m) <-> In x l /\ In x m.
Proof. unfold set_inter. rewrite filter_In, memb_In. tauto. Qed.

Lemma length_set_nth {A} (l : list A) i a : length (set_nth l i a) = length l.
Proof. revert i; induction l as [|x l IH]; intros [|i]; simpl; auto. Qed.

Lemma nth_error_set_nth {A} (l : list A) i j a :
  nth_error (set_nth l i a) j =
  if (j =? i) && (i <? length l) then Some a else nth_error l j.
Proof.
  revert i j; induction l as [|x l IH]; intros [|i] [|j]; simpl; auto.
  - rewrite andb_false_r; reflexivity.
  - rewrite IH. replace (S i <? S (length l)) with (i <? length l)
      by (destruct (Nat.ltb_spec i (length l)), (Nat.ltb_spec (S i) (S (length l))); auto; lia).
    reflexivity.
Qed.

Lemma nth_error_set_nth_same {A} (l : list A) i a :
  i < length l -> nth_error (set_nth l i a) i = Some a.
Proof.
  intros H. rewrite nth_error_set_nth, Nat.eqb_refl. apply Nat.ltb_lt in H. rewrite H. reflexivity.
Qed.

Lemma nth_error_set_nth_other {A} (l : list A) i j a :
  j <> i -> nth_error (set_nth l i a) j = nth_error l j.
Proof.
  intros H. rewrite nth_error_set_nth. apply Nat.eqb_neq in H. rewrite H. reflexivity.
Qed.

Lemma getitem_ok {A} (l : list A) i a : getitem l i = Ok a <-> nth_error l i = Some a.
Proof.
  unfold getitem. destruct (nth_error l i); split; intros H; congruence.
Qed.

Lemma getitem_lt {A} (l : list A) i : i < length l -> exists a, getitem l i = Ok a.
Proof.
  intros H. unfold getitem. destruct (nth_error l i) eqn:E; [eauto|].
  apply nth_error_None in E. lia.
Qed.

Lemma for_each_ok {A S} (l : list A) (body : A -> S -> res S) (g : A -> S -> S) (Inv : S -> Prop) s :
  (forall x s, In x l -> Inv s -> body x s = Ok (g x s) /\ Inv (g x s)) ->
  Inv s ->
  for_each l body s = Ok (fold_left (fun s x => g x s) l s)
  /\ Inv (fold_left (fun s x => g x s) l s).
Proof.
  revert s. induction l as [|x l IH]; intros s Hb Hi; simpl.
  - auto.
  - destruct (Hb x s) as [E Hi']; [left; auto|auto|].
    rewrite E. simpl. apply IH; [|auto].
    intros; apply Hb; [right|]; auto.
Qed.

Lemma for_each_inv {A S} (l : list A) (body : A -> S -> res S) (Inv : S -> Prop) s s' :
  (forall x s s1, In x l -> Inv s -> body x s = Ok s1 -> Inv s1) ->
  Inv s -> for_each l body s = Ok s' -> Inv s'.
Proof.
  revert s. induction l as [|x l IH]; intros s Hb Hi; simpl.
  - intros E; inversion E; subst; auto.
  - destruct (body x s) as [s1|e] eqn:E; simpl; [|discriminate].
    intros H. eapply IH; [| |exact H].
    + intros; eapply Hb; eauto. right; auto.
    + eapply Hb; eauto. left; auto.
Qed.

Lemma for_each_app {A S} (l1 l2 : list A) (body : A -> S -> res S) s :
  for_each (l1 ++ l2) body s = (let* s1 := for_each l1 body s in for_each l2 body s1).
Proof.
  revert s; induction l1 as [|x l1 IH]; intros s; simpl; auto.
  destruct (body x s); simpl; auto.
Qed.

Lemma map_res_ok {A B} (f : A -> res B) (g : A -> B) l :
  (forall x, In x l -> f x = Ok (g x)) -> map_res f l = Ok (map g l).
Proof.
  induction l as [|x l IH]; simpl; intros H; auto.
  rewrite (H x) by auto. simpl. rewrite IH by auto. reflexivity.
Qed.

(** Sums. *)
#[global] Instance qsum_proper_list {A} :
  Proper (pointwise_relation A Qeq ==> eq ==> Qeq) (@qsum A).
Proof.
  intros f g Hfg l l' <-. induction l as [|a l IH]; simpl; [reflexivity|].
  rewrite IH, (Hfg a). reflexivity.
Qed.

Lemma qsum_ext {A} (f g : A -> Q) l :
  (forall a, In a l -> f a == g a)%Q -> (qsum f l == qsum g l)%Q.
Proof.
  induction l as [|a l IH]; simpl; intros H; [reflexivity|].
  rewrite (H a), IH by auto. reflexivity.
Qed.

Lemma qsum_app {A} (f : A -> Q) l m : (qsum f (l ++ m) == qsum f l + qsum f m)%Q.
Proof. induction l as [|a l IH]; simpl; [lra|]. rewrite IH. lra. Qed.

Lemma qsum_plus {A} (f g : A -> Q) l : (qsum (fun a => f a + g a) l == qsum f l + qsum g l)%Q.
Proof. induction l as [|a l IH]; simpl; [lra|]. rewrite IH. lra. Qed.

Lemma qsum_minus {A} (f g : A -> Q) l : (qsum (fun a => f a - g a) l == qsum f l - qsum g l)%Q.
Proof. induction l as [|a l IH]; simpl; [lra|]. rewrite IH. lra. Qed.

Lemma qsum_scale {A} (c : Q) (f : A -> Q) l : (qsum (fun a => c * f a) l == c * qsum f l)%Q.
Proof. induction l as [|a l IH]; simpl; [lra|]. rewrite IH. lra. Qed.

Lemma qsum_scale_r {A} (c : Q) (f : A -> Q) l : (qsum (fun a => f a * c) l == qsum f l * c)%Q.
Proof. induction l as [|a l IH]; simpl; [lra|]. rewrite IH. lra. Qed.

Lemma qsum_zero {A} (f : A -> Q) l : (forall a, In a l -> f a == 0)%Q -> (qsum f l == 0)%Q.
Proof.
  induction l as [|a l IH]; simpl; intros H; [reflexivity|].
  rewrite (H a), IH by auto. lra.
Qed.

Lemma qsum_le {A} (f g : A -> Q) l :
  (forall a, In a l -> f a <= g a)%Q -> (qsum f l <= qsum g l)%Q.
Proof.
  induction l as [|a l IH]; simpl; intros H; [lra|].
  assert (f a <= g a)%Q by auto. assert (qsum f l <= qsum g l)%Q by auto. lra.
Qed.

Lemma qsum_nonneg {A} (f : A -> Q) l :
  (forall a, In a l -> 0 <= f a)%Q -> (0 <= qsum f l)%Q.
Proof.
  induction l as [|a l IH]; simpl; intros H; [lra|].
  assert (0 <= f a)%Q by auto. assert (0 <= qsum f l)%Q by auto. lra.
Qed.

Lemma qsum_map {A B} (g : A -> B) (f : B -> Q) l : qsum f (map g l) = qsum (fun a => f (g a)) l.
Proof. induction l as [|a l IH]; simpl; [reflexivity|]. rewrite IH; reflexivity. Qed.

Lemma qsum_perm {A} (f : A -> Q) l m : Permutation l m -> (qsum f l == qsum f m)%Q.
Proof.
  induction 1; simpl; [reflexivity| | |].
  - rewrite IHPermutation. reflexivity.
  - lra.
  - rewrite IHPermutation1; auto.
Qed.

Lemma qsum_swap {A B} (f : A -> B -> Q) l m :
  (qsum (fun a => qsum (fun b => f a b) m) l == qsum (fun b => qsum (fun a => f a b) l) m)%Q.
Proof.
  induction l as [|a l IH]; simpl.
  - symmetry. apply qsum_zero. intros; reflexivity.
  - rewrite IH. symmetry. apply (qsum_plus (fun b => f a b) (fun b => qsum (fun a => f a b) l)).
Qed.

Lemma qsum_filter {A} (f : A -> Q) (p : A -> bool) l :
  (qsum f (filter p l) == qsum (fun a => if p a then f a else 0) l)%Q.
Proof.
  induction l as [|a l IH]; simpl; [reflexivity|].
  destruct (p a); simpl; rewrite IH; lra.
Qed.

Lemma qsum_const {A} (c : Q) (l : list A) :
  (qsum (fun _ => c) l == inject_Z (Z.of_nat (length l)) * c)%Q.
Proof.
  induction l as [|a l IH]; cbn [qsum fold_right length]; [change (inject_Z (Z.of_nat 0)) with 0%Q; lra|].
  change (fold_right _ 0%Q l) with (qsum (fun _ : A => c) l). rewrite IH.
  rewrite Nat2Z.inj_succ. unfold Z.succ. rewrite inject_Z_plus. change (inject_Z 1) with 1%Q. lra.
Qed.

Lemma nsum_app {A} (f : A -> nat) l m : nsum f (l ++ m) = nsum f l + nsum f m.
Proof. induction l as [|a l IH]; simpl; lia. Qed.

Lemma nsum_ext {A} (f g : A -> nat) l :
  (forall a, In a l -> f a = g a) -> nsum f l = nsum g l.
Proof. induction l as [|a l IH]; simpl; intros H; auto. Qed.

Lemma nsum_zero {A} (f : A -> nat) l : (forall a, In a l -> f a = 0) -> nsum f l = 0.
Proof. induction l as [|a l IH]; simpl; intros H; auto. rewrite (H a), IH; auto. Qed.

Lemma nsum_plus {A} (f g : A -> nat) l : nsum (fun a => f a + g a) l = nsum f l + nsum g l.
Proof. induction l as [|a l IH]; simpl; lia. Qed.

Lemma nsum_perm {A} (f : A -> nat) l m : Permutation l m -> nsum f l = nsum f m.
Proof. induction 1; simpl; lia. Qed.

Lemma nsum_filter_length {A} (p : A -> bool) l :
  length (filter p l) = nsum (fun a => if p a then 1 else 0) l.
Proof. induction l as [|a l IH]; simpl; [reflexivity|]. destruct (p a); simpl; rewrite IH; reflexivity. Qed.

Lemma inject_nat_plus a b :
  (inject_Z (Z.of_nat (a + b)) == inject_Z (Z.of_nat a) + inject_Z (Z.of_nat b))%Q.
Proof. rewrite Nat2Z.inj_add, inject_Z_plus. reflexivity. Qed.

Lemma inject_nsum {A} (f : A -> nat) l :
  (inject_Z (Z.of_nat (nsum f l)) == qsum (fun a => inject_Z (Z.of_nat (f a))) l)%Q.
Proof.
  induction l as [|a l IH]; cbn [nsum qsum fold_right]; [reflexivity|].
  rewrite inject_nat_plus. change (fold_right (fun a acc => f a + acc) 0 l) with (nsum f l).
  rewrite IH. reflexivity.
Qed.

Lemma inject_nat_nonneg n : (0 <= inject_Z (Z.of_nat n))%Q.
Proof. change 0%Q with (inject_Z 0). rewrite <- Zle_Qle. lia. Qed.

(** [e1 = Ok ..] inversion helper. *)
Lemma bind_ok {A B} (x : res A) (f : A -> res B) b :
  bind x f = Ok b -> exists a, x = Ok a /\ f a = Ok b.
Proof. destruct x; simpl; intros H; [eauto|discriminate]. Qed.

Lemma assert_ok b u : assert b = Ok u -> b = true.
Proof. unfold assert; destruct b; [auto|discriminate]. Qed.

Ltac inv_ok :=
  repeat match goal with
  | H : bind ?x ?f = Ok _ |- _ =>
      let a := fresh "v" in let E := fresh "E" in
      apply bind_ok in H; destruct H as [a [E H]]
  | H : Ok _ = Ok _ |- _ => inversion H; clear H; subst
  | H : Err _ = Ok _ |- _ => discriminate H
  end.

Lemma Qsq_nonneg (a : Q) : (0 <= a * a)%Q.
Proof. unfold Qle. simpl. nia. Qed.

Lemma qsum_cons {A} (f : A -> Q) a l : qsum f (a :: l) = (f a + qsum f l)%Q.
Proof. reflexivity. Qed.
Lemma qsum_nil {A} (f : A -> Q) : qsum f [] = 0%Q.
Proof. reflexivity. Qed.
