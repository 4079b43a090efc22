(** Model of the command line part of examples/dtree_experiment.py: options, data files, label encoding and the results file
    (definitions only; line numbers refer to that file).

    Simplifications: getopt's splitting of the command line, Python's int, pandas' reading of a file and the text of numbers are
    arguments.  Files are named by the strings the script uses; two names of one file are not identified.  CART fitting always
    returns a tree: it depends on the data, the depth and the number of the tree.  Values of feature columns that are not numbers
    make scikit-learn raise ValueError when the first tree is fitted or the test data are scored; here when the data are
    prepared.  The time for cut generation is an argument. *)
From Coq Require Import String Ascii DecimalString.
From Verif Require Import Base Lp FitModel TreeModel TreePricingModel TreeFitModel ExpModel ExpMainModel.
Open Scope nat_scope.

(** * Options *)
(** The variables of lines 62-71.  [st_time]: the argument of -s, from which time_limit and preprocessing_time_limit are set
    ([budget] and [pre_budget] in ExpMainModel.v). *)
Record command := mkCommand {
  st_train : string; st_test : string; st_depth : Z; st_iterations : Z; st_time : option Z; st_sep : string; st_header : option Z;
  st_dir : string
}.
(** Lines 62-71. *)
Definition defaults : command := mkCommand "" "" 2 (-1) None "," (Some 0%Z) "results/".
(** [opt in names] *)
Definition member (s : string) (l : list string) : bool := existsb (String.eqb s) l.
Section Options.
Variable to_int : string -> option Z.
(** int(arg) *)
Definition int_of (a : string) : res Z := match to_int a with Some z => Ok z | None => Err ValueError end.
(** Lines 87-108.  [None]: -h, the script prints its options and exits. *)
Definition read_option (opt arg : string) (s : command) : res (option command) :=
  if String.eqb opt "-h" then Ok None
  else if member opt ["-T"; "--train_file"]%string then
    Ok (Some (mkCommand arg (st_test s) (st_depth s) (st_iterations s) (st_time s) (st_sep s) (st_header s) (st_dir s)))
  else if member opt ["-t"; "--test_file"]%string then
    Ok (Some (mkCommand (st_train s) arg (st_depth s) (st_iterations s) (st_time s) (st_sep s) (st_header s) (st_dir s)))
  else if member opt ["-S"; "--sep"]%string then
    Ok (Some (mkCommand (st_train s) (st_test s) (st_depth s) (st_iterations s) (st_time s) arg (st_header s) (st_dir s)))
  else if member opt ["-H"; "--header"]%string then
    let* h := int_of arg in
    Ok (Some (mkCommand (st_train s) (st_test s) (st_depth s) (st_iterations s) (st_time s) (st_sep s)
                (if (h <? 0)%Z then None else Some h) (st_dir s)))
  else if member opt ["-d"; "--depth"]%string then
    let* d := int_of arg in
    Ok (Some (mkCommand (st_train s) (st_test s) d (st_iterations s) (st_time s) (st_sep s) (st_header s) (st_dir s)))
  else if member opt ["-i"; "--iterations"]%string then
    let* i := int_of arg in
    Ok (Some (mkCommand (st_train s) (st_test s) (st_depth s) i (st_time s) (st_sep s) (st_header s) (st_dir s)))
  else if member opt ["-s"; "--time_limit"]%string then
    let* t := int_of arg in
    Ok (Some (mkCommand (st_train s) (st_test s) (st_depth s) (st_iterations s) (Some t) (st_sep s) (st_header s) (st_dir s)))
  else if member opt ["-r"; "--results_dir"]%string then
    Ok (Some (mkCommand (st_train s) (st_test s) (st_depth s) (st_iterations s) (st_time s) (st_sep s) (st_header s)
                ("results/" ++ arg ++ "/")%string))
  else Ok (Some s).
(** Lines 86-108. *)
Fixpoint read_options (opts : list (string * string)) (s : command) : res (option command) :=
  match opts with
  | [] => Ok (Some s)
  | (opt, arg) :: opts' => let* r := read_option opt arg s in match r with Some s' => read_options opts' s' | None => Ok None end
  end.
End Options.
(** The options of [ExpMainModel.train]. *)
Definition options_of (s : command) : options := mkOptions (Z.to_nat (st_depth s)) (st_iterations s) (st_time s).

(** * Data *)
(** A DataFrame: the names of its columns, without repetition, and its rows. *)
Record table (V : Type) := mkTable { tb_columns : list string; tb_rows : list (list V) }.
Arguments mkTable {V}. Arguments tb_columns {V}. Arguments tb_rows {V}.
Section Data.
Context {V : Type} (ltb : V -> V -> bool).
(** The position of a column. *)
Fixpoint column (name : string) (names : list string) : res nat :=
  match names with
  | [] => Err KeyError
  | n :: ns => if String.eqb name n then Ok 0 else let* i := column name ns in Ok (S i)
  end.
(** Lines 117 and 119: df[features]. *)
Definition select (features : list string) (t : table V) : res (list (list V)) :=
  let* is := map_res (fun f => column f (tb_columns t)) features in
  map_res (fun row => map_res (getitem row) is) (tb_rows t).
(** Lines 118 and 120: df.iloc[:, -1]. *)
Definition last_column (t : table V) : res (list V) :=
  match tb_columns t with
  | [] => Err IndexError
  | _ => map_res (fun row => getitem row (length (tb_columns t) - 1)) (tb_rows t)
  end.
(** Lines 115-120: X_train, y_train, X_test, y_test. *)
Definition load (train test : table V) : res (list (list V) * list V * list (list V) * list V) :=
  let features := removelast (tb_columns train) in
  let* X := select features train in
  let* y := last_column train in
  let* Xt := select features test in
  let* yt := last_column test in
  Ok (X, y, Xt, yt).

(** LabelEncoder: the sorted distinct labels (line 123) and the number of a label among them (lines 123 and 124). *)
Fixpoint insert_label (v : V) (l : list V) : list V :=
  match l with
  | [] => [v]
  | w :: l' => if ltb v w then v :: l else if ltb w v then w :: insert_label v l' else l
  end.
Definition label_classes (ys : list V) : list V := fold_right insert_label [] ys.
Fixpoint label_code (classes : list V) (v : V) : res nat :=
  match classes with
  | [] => Err ValueError
  | w :: cs => if ltb v w || ltb w v then let* i := label_code cs v in Ok (S i) else Ok 0
  end.
Definition encode (classes ys : list V) : res (list nat) := map_res (label_code classes) ys.
End Data.

(** * The results file *)
Inductive field := FText (s : string) | FQ (q : Q) | FN (n : nat).
(** vars() of a Results object, lines 38-56, filled in lines 187-191 and 318-340. *)
Definition attributes (name : string) (cut_time : Q) (r : results) : list (string * field) :=
  [("name", FText name); ("train_accuracy", FQ (rs_train r)); ("test_accuracy", FQ (rs_test r)); ("preprocessing_time", FQ (rs_pre r));
   ("training_time", FQ (rs_time r)); ("master_time", FQ (rs_master r)); ("mster_cuts_time", FQ cut_time); ("master_num_cuts", FN (rs_cuts r));
   ("sp_time_heuristic", FQ (rs_sp_heuristic r)); ("sp_time_ip", FQ (rs_sp_ip r)); ("sp_cols_added_heuristic", FN (rs_cols_heuristic r));
   ("sp_cols_added_ip", FN (rs_cols_ip r)); ("col_add_time", FQ (rs_add r)); ("master_ip_time", FQ (rs_ip r));
   ("total_iterations", FN (rs_iterations r)); ("num_improving_iter", FN (rs_improving r)); ("heuristic_hit_rate", FQ (rs_hit_rate r))]%string.
(** sorted(), line 366. *)
Fixpoint insert_name (s : string) (l : list string) : list string :=
  match l with
  | [] => [s]
  | t :: l' => match String.compare s t with Gt => t :: insert_name s l' | _ => s :: l end
  end.
Definition sorted_names (l : list string) : list string := fold_right insert_name [] l.
Fixpoint attribute (name : string) (l : list (string * field)) : res field :=
  match l with
  | [] => Err AttributeError
  | (n, v) :: l' => if String.eqb name n then Ok v else attribute name l'
  end.
(** Lines 365-371: the lines of the file. *)
Definition results_lines (cut_time : Q) (cart cg : results) : res (list (list field)) :=
  let a := attributes "CART" 0 cart in
  let b := attributes "CG1" cut_time cg in
  let names := sorted_names (map fst a) in
  let* ra := map_res (fun n => attribute n a) names in
  let* rb := map_res (fun n => attribute n b) names in
  Ok [map FText names; ra; rb].
(** os.path.basename: what follows the last slash. *)
Fixpoint occurs (c : ascii) (s : string) : bool :=
  match s with EmptyString => false | String d s' => Ascii.eqb d c || occurs c s' end.
Fixpoint after_last (c : ascii) (s : string) : string :=
  match s with EmptyString => EmptyString | String d s' => if Ascii.eqb d c || occurs c s' then after_last c s' else s end.
Definition basename (s : string) : string := after_last "/" s.
(** str() of an integer. *)
Definition decimal (z : Z) : string := NilZero.string_of_int (Z.to_int z).
(** Lines 359-363. *)
Definition results_name (s : command) : string :=
  (st_dir s ++ "T_" ++ basename (st_train s) ++ "_d_" ++ decimal (st_depth s) ++ "_results.csv")%string.

(** * The script *)
(** What the script takes from outside.  [V]: values in the data files; [F]: contents of a file. *)
Record system (V F : Type) := mkSystem {
  sy_int : string -> option Z;                               (* int() *)
  sy_parse : F -> string -> option Z -> res (table V);       (* read_csv with separator and header *)
  sy_ltb : V -> V -> bool;                                   (* order of the labels *)
  sy_num : V -> option Q;                                    (* value of a feature *)
  sy_first : nat -> list sample -> list nat -> nat -> cart;  (* CART trees, by depth, data and number *)
  sy_final : nat -> list sample -> list nat -> cart;
  sy_class : nat -> list sample -> list nat -> nat -> nat;
  sy_more : nat -> list sample -> list nat -> nat -> cart;
  sy_single : Q -> Q;
  sy_clock : nat -> Q; sy_pre_clock : nat -> Q; sy_fit_clock : nat -> Q;
  sy_solvers : fsolvers;
  sy_cut_time : Q;                                           (* cut_gen_time *)
  sy_write : list (list field) -> F;                         (* csv.DictWriter *)
  sy_opens : string -> bool                                  (* can a file of this name be opened for writing? *)
}.
Arguments sy_int {V F}. Arguments sy_parse {V F}. Arguments sy_ltb {V F}. Arguments sy_num {V F}. Arguments sy_first {V F}.
Arguments sy_final {V F}. Arguments sy_class {V F}. Arguments sy_more {V F}. Arguments sy_single {V F}. Arguments sy_clock {V F}.
Arguments sy_pre_clock {V F}. Arguments sy_fit_clock {V F}. Arguments sy_solvers {V F}. Arguments sy_cut_time {V F}.
Arguments sy_write {V F}. Arguments sy_opens {V F}.
(** How a run of the script ends. *)
Inductive ending :=
| Finished                  (* main returns *)
| Exit (code : Z)           (* sys.exit *)
| Stopped (e : exn)         (* an exception *)
| NoFile (name : string)    (* a file cannot be opened *)
| Endless.                  (* more iterations than [fuel] *)
Section Script.
Context {V F : Type} (sy : system V F).
Definition files : Type := string -> option F.
Definition store (name : string) (c : F) (fs : files) : files := fun n => if String.eqb n name then Some c else fs n.
Definition number (v : V) : res Q := match sy_num sy v with Some q => Ok q | None => Err ValueError end.
(** Lines 115-124, and the failures of lines 140-146 for a depth below 1: range of a fraction, division by zero. *)
Definition prepare_data (depth : Z) (train test : table V) : res world :=
  let* (X, y, Xt, yt) := load train test in
  let classes := label_classes (sy_ltb sy) y in
  let* ye := encode (sy_ltb sy) classes y in
  let* yte := encode (sy_ltb sy) classes yt in
  if (depth <? 0)%Z then Err TypeError
  else if (depth =? 0)%Z then Err ZeroDivisionError
  else
    let* Xn := map_res (map_res number) X in
    let* Xtn := map_res (map_res number) Xt in
    let d := Z.to_nat depth in
    Ok (mkWorld Xn ye Xtn yte (sy_first sy d Xn ye) (sy_final sy d Xn ye) (sy_class sy d Xn ye) (sy_single sy) (sy_more sy d Xn ye)
          (sy_clock sy) (sy_pre_clock sy) (sy_fit_clock sy) (sy_solvers sy)).
(** Lines 110-371.  [fs] are the files before, the second result those after. *)
Definition run (s : command) (fuel : nat) (fs : files) : ending * files :=
  match fs (st_train s) with
  | None => (NoFile (st_train s), fs)
  | Some ftrain =>
  match sy_parse sy ftrain (st_sep s) (st_header s) with
  | Err e => (Stopped e, fs)
  | Ok train =>
  match fs (st_test s) with
  | None => (NoFile (st_test s), fs)
  | Some ftest =>
  match sy_parse sy ftest (st_sep s) (st_header s) with
  | Err e => (Stopped e, fs)
  | Ok test =>
  match prepare_data (st_depth s) train test with
  | Err e => (Stopped e, fs)
  | Ok wd =>
  match main wd (options_of s) fuel with
  | Raised e => (Stopped e, fs)
  | NoFuel => (Endless, fs)
  | Done (cart, cg) =>
      if sy_opens sy (results_name s) then
        match results_lines (sy_cut_time sy) cart cg with
        | Ok ls => (Finished, store (results_name s) (sy_write sy ls) fs)
        | Err e => (Stopped e, store (results_name s) (sy_write sy []) fs)
        end
      else (NoFile (results_name s), fs)
  end end end end end end.
(** main, lines 59-371.  [opts]: getopt's list of options, [None] if it raises. *)
Definition script (opts : option (list (string * string))) (fuel : nat) (fs : files) : ending * files :=
  match opts with
  | None => (Exit 2, fs)
  | Some l =>
      match read_options (sy_int sy) l defaults with
      | Err e => (Stopped e, fs)
      | Ok None => (Exit 0, fs)
      | Ok (Some s) => run s fuel fs
      end
  end.
End Script.
