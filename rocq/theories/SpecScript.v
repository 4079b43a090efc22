(** What a user of the command line relies on (statement side only). *)
From Coq Require Import String Ascii.
From Verif Require Import Base ExpModel ExpMainModel SpecTree SpecExp SpecPrep SpecMain ScriptModel.
Open Scope nat_scope.

(** * Options *)
Local Open Scope string_scope.
(** The argument of the last option with one of the given names. *)
Definition last_arg (names : list string) (opts : list (string * string)) : option string :=
  option_map snd (find (fun oa => existsb (String.eqb (fst oa)) names) (rev opts)).
Definition or_else {A} (o : option A) (a : A) : A := match o with Some b => b | None => a end.
(** The number given by the last option with one of the given names is [z]; without such an option [z] is the default. *)
Definition number_arg (to_int : string -> option Z) (names : list string) (opts : list (string * string)) (default z : Z) : Prop :=
  match last_arg names opts with Some a => to_int a = Some z | None => z = default end.
(** The command line the options ask for: the last one of a kind counts. *)
Record asked (to_int : string -> option Z) (opts : list (string * string)) (s : command) : Prop := {
  ak_train : st_train s = or_else (last_arg ["-T"; "--train_file"] opts) "";
  ak_test : st_test s = or_else (last_arg ["-t"; "--test_file"] opts) "";
  ak_sep : st_sep s = or_else (last_arg ["-S"; "--sep"] opts) ",";
  ak_dir : st_dir s = match last_arg ["-r"; "--results_dir"] opts with Some a => "results/" ++ a ++ "/" | None => "results/" end;
  (** The training is given the depth and the number of iterations that are asked for. *)
  ak_depth : number_arg to_int ["-d"; "--depth"] opts 2 (st_depth s);
  ak_iterations : number_arg to_int ["-i"; "--iterations"] opts (-1) (op_iterations (options_of s));
  ak_levels : (0 <= st_depth s)%Z -> Z.of_nat (op_depth (options_of s)) = st_depth s;
  (** A negative header number means that there is no header line. *)
  ak_header : exists h, number_arg to_int ["-H"; "--header"] opts 0 h /\ ((0 <= h)%Z /\ st_header s = Some h \/ (h < 0)%Z /\ st_header s = None);
  (** The time limit is 600 seconds or what is asked for; a third of it is for preprocessing. *)
  ak_time : exists t, number_arg to_int ["-s"; "--time_limit"] opts 600 t /\ (budget (options_of s) == inject_Z t)%Q /\ (pre_budget (options_of s) == inject_Z t / 3)%Q
}.
(** An option that needs a number has an argument that is none. *)
Definition bad_number (to_int : string -> option Z) (oa : string * string) : Prop :=
  In (fst oa) ["-H"; "--header"; "-d"; "--depth"; "-i"; "--iterations"; "-s"; "--time_limit"] /\ to_int (snd oa) = None.
Definition is_help (oa : string * string) : Prop := fst oa = "-h".

Local Close Scope string_scope.
(** * Data *)
Section Data.
Context {V : Type}.
(** [lt] orders the labels. *)
Record strict_order (lt : V -> V -> bool) : Prop := {
  so_irrefl : forall a, lt a a = false;
  so_trans : forall a b c, lt a b = true -> lt b c = true -> lt a c = true;
  so_total : forall a b, lt a b = false -> lt b a = false -> a = b
}.
(** A list in increasing order. *)
Definition increasing (lt : V -> V -> bool) (l : list V) : Prop := forall i j a b, nth_error l i = Some a -> nth_error l j = Some b -> (i < j <-> lt a b = true).
(** [codes] stand for [labels]: code [c] means entry [c] of [classes]. *)
Definition coded (classes : list V) (codes : list nat) (labels : list V) : Prop := Forall2 (fun c v => nth_error classes c = Some v) codes labels.
(** A table whose rows have one value per column; column names are distinct. *)
Definition proper (t : table V) : Prop := 0 < length (tb_columns t) /\ NoDup (tb_columns t) /\ Forall (fun r => length r = length (tb_columns t)) (tb_rows t).
(** The value of a row in the column with the given name. *)
Definition in_column (t : table V) (row : list V) (name : string) (v : V) : Prop :=
  exists i, nth_error (tb_columns t) i = Some name /\ nth_error row i = Some v.
(** The value in the last column. *)
Definition in_last (t : table V) (row : list V) (v : V) : Prop := nth_error row (length (tb_columns t) - 1) = Some v.
(** The features are the columns of the training table but the last. *)
Definition is_feature (train : table V) (name : string) : Prop := exists i, S i < length (tb_columns train) /\ nth_error (tb_columns train) i = Some name.
End Data.

(** * The results file *)
Local Open Scope string_scope.
(** The values under the headings of the results file. *)
Record reports (value : string -> field -> Prop) (r : results) : Prop := {
  rp_train : value "train_accuracy" (FQ (rs_train r)); rp_test : value "test_accuracy" (FQ (rs_test r));
  rp_pre : value "preprocessing_time" (FQ (rs_pre r)); rp_time : value "training_time" (FQ (rs_time r));
  rp_master : value "master_time" (FQ (rs_master r)); rp_cuts : value "master_num_cuts" (FN (rs_cuts r));
  rp_heuristic : value "sp_time_heuristic" (FQ (rs_sp_heuristic r)); rp_sp_ip : value "sp_time_ip" (FQ (rs_sp_ip r));
  rp_cols_heuristic : value "sp_cols_added_heuristic" (FN (rs_cols_heuristic r)); rp_cols_ip : value "sp_cols_added_ip" (FN (rs_cols_ip r));
  rp_add : value "col_add_time" (FQ (rs_add r)); rp_ip : value "master_ip_time" (FQ (rs_ip r));
  rp_iterations : value "total_iterations" (FN (rs_iterations r)); rp_improving : value "num_improving_iter" (FN (rs_improving r));
  rp_hit : value "heuristic_hit_rate" (FQ (rs_hit_rate r))
}.
(** Entry of a line under a heading. *)
Definition under (header line : list field) (name : string) (v : field) : Prop := exists j, nth_error header j = Some (FText name) /\ nth_error line j = Some v.
Local Close Scope string_scope.

(** * The whole script *)
(** The data can be used: the depth is positive, the test data have the columns of the training data and no other labels, and the
    features are numbers. *)
Record usable {V} (num : V -> option Q) (depth : Z) (train test : table V) : Prop := {
  us_depth : (1 <= depth)%Z;
  us_columns : forall f, is_feature train f -> In f (tb_columns test);
  us_labels : forall row v, In row (tb_rows test) -> in_last test row v -> exists row', In row' (tb_rows train) /\ in_last train row' v;
  us_numbers : forall t row f v, t = train \/ t = test -> In row (tb_rows t) -> is_feature train f -> in_column t row f v -> exists q, num v = Some q
}.
(** The samples [X] have the values of the feature columns of table [t], in the order of the training table's columns. *)
Definition samples_of {V} (num : V -> option Q) (train t : table V) (X : list (list Q)) : Prop :=
  Forall2 (fun row x => Forall2 (fun f q => exists v, in_column t row f v /\ num v = Some q) (removelast (tb_columns train)) x) (tb_rows t) X.
(** The codes [y] stand for the values in the last column of table [t]. *)
Definition labels_of {V} (classes : list V) (t : table V) (y : list nat) : Prop :=
  Forall2 (fun row c => exists v, in_last t row v /\ nth_error classes c = Some v) (tb_rows t) y.
(** What is assumed of the data and of scikit-learn's trees: two labels or more, test data, and the conditions of C70. *)
Record good_run {V F} (sy : system V F) (s : command) (train test : table V) : Prop := {
  gr_order : strict_order (sy_ltb sy);
  gr_train : proper train; gr_test : proper test; gr_usable : usable (sy_num sy) (st_depth s) train test;
  gr_rows : tb_rows test <> [];
  gr_labels : exists row row' v v', In row (tb_rows train) /\ In row' (tb_rows train) /\ in_last train row v /\ in_last train row' v' /\ v <> v';
  gr_trees : forall wd, prepare_data sy (st_depth s) train test = Ok wd ->
    (let d := Z.to_nat (st_depth s) in let m := length (tb_columns train) - 1 in
     (forall i, cart_for d m (wd_first wd i)) /\ cart_for d m (wd_final wd) /\ (forall i, cart_for d m (wd_more wd i)) /\ exists h, has_test (wd_final wd) h) /\
    splits_kept wd (options_of s);
  gr_clock : steady (sy_pre_clock sy);
  gr_honest : always_honest (sy_solvers sy)
}.
