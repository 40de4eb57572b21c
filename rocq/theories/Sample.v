(** Model of src/sample/sample_struct.rs (and of the reading part of src/sample/sample_reader.rs).
    Files are modelled after tokenisation: a CSV file is a header and rows of numbers, an SVMLight file a list of
    (label, index:value pairs).  Opening files, splitting lines and parsing numbers are modelled in Reader.v. *)
From Verif Require Import Base Feature.
From Coq Require Import String DecimalString.
From Coq Require Import List.
Open Scope string_scope.
Open Scope list_scope.
Open Scope R_scope.

(** HashMap<String, usize> as an association list with pairwise different keys; its order is the (unspecified)
    iteration order of the hash map. *)
Definition hm := list (string * nat).
Definition hm_get (m : hm) (k : string) : option nat :=
  match find (fun p => String.eqb (fst p) k) m with Some p => Some (snd p) | None => None end.
Definition hm_insert (m : hm) (k : string) (v : nat) : hm := (k, v) :: filter (fun p => negb (String.eqb (fst p) k)) m.
Definition hm_collect (l : list (string * nat)) : hm := fold_left (fun m p => hm_insert m (fst p) (snd p)) l [].

(** sample_struct.rs:26-32 *)
Record sample := mkSample {
  s_names : hm;
  s_features : list feature;
  s_target : list R;
  s_n_sample : nat;
  s_n_feature : nat;
}.

(** lines 133-136, 166-169, 214-217, 285-288, 350-354: features.iter().enumerate().map(|(i, f)| (name, i)).collect() *)
Definition index_names (names : list string) : hm := hm_collect (combine names (seq 0 (length names))).

(** lines 38-51 [dummy] *)
Definition sample_dummy (n : nat) : sample :=
  let half := Nat.div n 2 in
  mkSample (hm_collect [("dummy"%string, 0%nat)]) [new_sparse "dummy"] (repeat 1 half ++ repeat (-1) (n - half)) n 1.

(** format!("Feat. [{k}]") *)
Definition default_name (k : nat) : string :=
  String.append "Feat. [" (String.append (DecimalString.NilEmpty.string_of_uint (Nat.to_uint k)) "]").

(** lines 116-121: append the i-th number to the i-th column; features[i] panics out of range *)
Fixpoint append_csv_row (cols : list (list R)) (row : list R) : res (list (list R)) :=
  match row, cols with
  | [], _ => Ok cols
  | x :: row', c :: cols' => let* r := append_csv_row cols' row' in Ok ((c ++ [x]) :: r)
  | _ :: _, [] => Panic IndexOutOfBounds
  end.
Fixpoint append_csv_rows (cols : list (list R)) (rows : list (list R)) : res (list (list R)) :=
  match rows with
  | [] => Ok cols
  | r :: rest => let* c := append_csv_row cols r in append_csv_rows c rest
  end.

(** lines 63-143 [from_csv].  [header = None]: has_header is false and the names are made up from the first row *)
Definition from_csv (header : option (list string)) (rows : list (list R)) : res sample :=
  let names := match header, rows with
               | Some h, _ => h
               | None, r :: _ => map default_name (seq 1 (length r))
               | None, [] => []
               end in
  let* cols := append_csv_rows (repeat [] (length names)) rows in
  let features := map (fun p => Dense (fst p) (snd p)) (combine names cols) in
  Ok (mkSample (index_names (map feat_name features)) features [] (length rows) (length features)).

(** lines 149-175 [from_dataframe]: [cols] are the named columns of the data frame, n its height *)
Definition from_dataframe (cols : list (string * list R)) (n : nat) (target : list R) : sample :=
  let features := map (fun p => Dense (fst p) (snd p)) cols in
  mkSample (index_names (map feat_name features)) features target n (length cols).

(** lines 202-220 [set_target] *)
Fixpoint position (p : feature -> bool) (l : list feature) : option nat :=
  match l with [] => None | f :: t => if p f then Some 0%nat else match position p t with Some k => Some (S k) | None => None end end.
Definition remove_nth {A} (k : nat) (l : list A) : list A := firstn k l ++ skipn (S k) l.
Definition set_target (s : sample) (nm : string) : res sample :=
  match position (fun f => String.eqb (feat_name f) nm) (s_features s) with
  | None => Panic UnwrapNone
  | Some pos =>
      let* t := into_target (nth pos (s_features s) (new_dense "")) in
      if Nat.eqb (s_n_feature s) 0 then Panic Arith else
      let fs := remove_nth pos (s_features s) in
      Ok (mkSample (index_names (map feat_name fs)) fs t (s_n_sample s) (s_n_feature s - 1))
  end.

(** lines 301-318 [remove_allzero_features] *)
Definition remove_allzero (s : sample) : sample :=
  let kept := filter (fun f => negb (feat_is_empty f)) (s_features s) in
  mkSample (hm_collect (combine (map feat_name kept) (seq 0 (length (map feat_name kept))))) kept (s_target s) (s_n_sample s) (length kept).

(** lines 261-271: one line of an SVMLight file; [grow] is the while loop that adds features up to index i *)
Definition grow (fs : list (list (nat * R))) (i : nat) : list (list (nat * R)) := fs ++ repeat [] (S i - length fs).
Definition svm_word (r : nat) (fs : list (list (nat * R))) (w : nat * R) : list (list (nat * R)) :=
  let g := grow fs (fst w) in upd (fst w) (nth (fst w) g [] ++ [(r, snd w)]) g.
Definition svm_line (r : nat) (fs : list (list (nat * R))) (ws : list (nat * R)) : list (list (nat * R)) := fold_left (svm_word r) ws fs.
Fixpoint svm_lines (r : nat) (fs : list (list (nat * R))) (lines : list (R * list (nat * R))) : list (list (nat * R)) :=
  match lines with [] => fs | l :: rest => svm_lines (S r) (svm_line r fs (snd l)) rest end.

(** lines 237-297 [from_svmlight] *)
Definition from_svmlight (lines : list (R * list (nat * R))) : sample :=
  let cols := svm_lines 0 [] lines in
  let features := map (fun p => Sparse (default_name (S (fst p))) (snd p) (length lines)) (combine (seq 0 (length cols)) cols) in
  remove_allzero (mkSample (index_names (map feat_name features)) features (map fst lines) (length lines) (length features)).

(** lines 323-325 [shape] *)
Definition shape (s : sample) : nat * nat := (s_n_sample s, s_n_feature s).

(** lines 331-356 [replace_names] *)
Definition replace_names (s : sample) (names : list string) : res (sample * list string) :=
  let* _ := assert_ (Nat.eqb (length names) (s_n_feature s)) in
  let old := map (fun p => feat_name (snd p)) (combine names (s_features s)) in
  let fs := map (fun p => replace_name (snd p) (fst p)) (combine names (s_features s)) ++ skipn (length names) (s_features s) in
  Ok (mkSample (index_names (map feat_name fs)) fs (s_target s) (s_n_sample s) (s_n_feature s), old).

(** lines 360-367 [at] *)
Fixpoint read_row (fs : list feature) (idx : nat) : res (list R) :=
  match fs with
  | [] => Ok []
  | f :: t => let* x := feat_index f idx in let* r := read_row t idx in Ok (x :: r)
  end.
Definition at_ (s : sample) (idx : nat) : res (list R * R) :=
  let* x := read_row (s_features s) idx in
  let* y := get_ (s_target s) idx in
  Ok (x, y).

(** lines 614-625 [Index<&str>] *)
Definition by_name (s : sample) (nm : string) : res feature :=
  match hm_get (s_names s) nm with
  | None => Panic UnwrapNone
  | Some k => match nth_error (s_features s) k with Some f => Ok f | None => Panic IndexOutOfBounds end
  end.

(** lines 370-379 [target_is_specified] *)
Definition target_is_specified (s : sample) : res unit := assert_ (Nat.eqb (s_n_sample s) (length (s_target s))).

(** lines 524-531 [append] *)
Fixpoint append_cols (row : nat) (fs : list feature) (xs : list R) : list feature :=
  match fs, xs with
  | f :: fs', x :: xs' => feat_append f row x :: append_cols row fs' xs'
  | _, _ => fs
  end.
Definition sample_append (s : sample) (row : nat) (x : list R) (y : R) : sample :=
  mkSample (s_names s) (append_cols row (s_features s) x) (s_target s ++ [y]) (s_n_sample s) (s_n_feature s).

(** lines 562-572: the empty columns of the two halves, in the iteration order of the hash map *)
Fixpoint init_columns (src : list feature) (train_size test_size : nat) (entries : hm) (acc : list feature * list feature)
  : res (list feature * list feature) :=
  match entries with
  | [] => Ok acc
  | (nm, i) :: rest =>
      match nth_error src i with
      | None => Panic IndexOutOfBounds
      | Some f =>
          let col n := if is_sparse f then set_n_sample (new_sparse nm) n else new_dense nm in
          init_columns src train_size test_size rest (upd i (col train_size) (fst acc), upd i (col test_size) (snd acc))
      end
  end.

(** lines 574-587: copy rows; [rows] are (position in ix, row number) pairs *)
Fixpoint append_rows (src : sample) (rows : list (nat * nat)) (acc : sample) : res sample :=
  match rows with
  | [] => Ok acc
  | (i, ii) :: rest => let* xy := at_ src ii in append_rows src rest (sample_append acc i (fst xy) (snd xy))
  end.

(** lines 536-590 [split]; usize subtractions panic when negative *)
Definition split_sample (s : sample) (ix : list nat) (start end_ : nat) : res (sample * sample) :=
  if Nat.ltb end_ start then Panic Arith else
  let test_size := (end_ - start)%nat in
  if Nat.ltb (s_n_sample s) test_size then Panic Arith else
  let train_size := (s_n_sample s - test_size)%nat in
  let n_feature := length (s_features s) in
  let dummy := repeat (new_sparse "dummy") n_feature in
  let* cols := init_columns (s_features s) train_size test_size (s_names s) (dummy, dummy) in
  let train0 := mkSample (s_names s) (fst cols) [] train_size n_feature in
  let test0 := mkSample (s_names s) (snd cols) [] test_size n_feature in
  let e := combine (seq 0 (length ix)) ix in
  let* train1 := append_rows s (firstn start e) train0 in
  let* test1 := append_rows s (skipn start (firstn end_ e)) test0 in
  let* train2 := append_rows s (skipn end_ (firstn (s_n_sample s) e)) train1 in
  Ok (train2, test1).

(** The samples a caller can build (the histories C40 and C49 range over).
    [made s]: s was made by reading a rectangular CSV table, a data frame, or an SVMLight file without repeated
    indices in a line, followed by any sequence of set_target and replace_names *)
Inductive made : sample -> Prop :=
| made_csv header rows s : (forall r, In r rows -> length r = match header with Some h => length h | None => length (hd [] rows) end) ->
    (header = None -> rows <> []) -> from_csv header rows = Ok s -> made s
| made_dataframe cols n target : (forall c, In c cols -> length (snd c) = n) -> made (from_dataframe cols n target)
| made_svmlight lines : (forall l, In l lines -> NoDup (map fst (snd l))) -> made (from_svmlight lines)
| made_set_target s nm s' : made s -> set_target s nm = Ok s' -> made s'
| made_replace_names s names s' old : made s -> replace_names s names = Ok (s', old) -> made s'.
