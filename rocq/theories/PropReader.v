(** C68: reading files.  Specification in TextSpec.v *)
From Verif Require Import Base Spec Feature Sample SampleSpec SampleFacts TextSpec Reader ReaderFacts.
From Coq Require Import Ascii String.
From Coq Require Import List.
Open Scope R_scope.


(** ** C68: which texts are accepted as numbers, and their values *)

Theorem C68_numbers :
  forall t x, parse_f64 (trim t) = Ok x <-> cell t x.
Proof. exact P_C68_numbers. Qed.
Print Assumptions C68_numbers.

(** ** C68: a CSV file with a header row holds exactly the table that was written *)

Theorem C68_csv_with_header :
  forall (header : list text) (table : list (list text)) (values : list (list R)) (content : text),
  header <> [] -> (forall nm, In nm header -> ~ In ","%char nm) ->
  (forall r, In r table -> length r = length header) -> Forall2 (Forall2 cell) table values ->
  let lines := map (joined [","%char]) (header :: table) in
  Forall line_ok lines -> file_of lines content ->
  exists s, read_csv content true = Ok s /\ shape s = (length table, length header) /\
    map feat_name (s_features s) = map string_of_list_ascii header /\
    forall i j, (i < length table)%nat -> (j < length header)%nat ->
      exists f, nth_error (s_features s) j = Some f /\ feat_index f i = Ok (nth j (nth i values []) 0).
Proof. exact P_C68_csv_with_header. Qed.
Print Assumptions C68_csv_with_header.

(** ** C68: a CSV file without a header row: the columns are named "Feat. [1]", "Feat. [2]", ... *)

Theorem C68_csv_without_header :
  forall (table : list (list text)) (values : list (list R)) (content : text) (m : nat),
  (0 < m)%nat -> table <> [] -> (forall r, In r table -> length r = m) -> Forall2 (Forall2 cell) table values ->
  let lines := map (joined [","%char]) table in
  Forall line_ok lines -> file_of lines content ->
  exists s, read_csv content false = Ok s /\ shape s = (length table, m) /\
    map feat_name (s_features s) = map default_name (seq 1 m) /\
    forall i j, (i < length table)%nat -> (j < m)%nat ->
      exists f, nth_error (s_features s) j = Some f /\ feat_index f i = Ok (nth j (nth i values []) 0).
Proof. exact P_C68_csv_without_header. Qed.
Print Assumptions C68_csv_without_header.

(** ** C68: a CSV file with an entry that is not a decimal number is rejected, in particular one with an empty line *)

Theorem C68_csv_rejects :
  forall (has_header : bool) (header : text) (lines : list (list text)) (content : text) (row : list text) (t : text),
  (forall r, In r lines -> r <> [] /\ forall p, In p r -> ~ In ","%char p) ->
  let all := (if has_header then [header] else []) ++ map (joined [","%char]) lines in
  Forall line_ok all -> file_of all content ->
  In row lines -> In t row -> (forall x, ~ cell t x) ->
  exists q, read_csv content has_header = Panic q.
Proof. exact P_C68_csv_rejects. Qed.
Print Assumptions C68_csv_rejects.

(** ** C68: an SVMLight file holds exactly the labels and the entries that were written *)

Theorem C68_svmlight :
  forall (texts : list text) (lines : list (R * list (nat * R))) (content : text),
  Forall2 svm_line_text texts lines -> (forall l, In l lines -> NoDup (map fst (snd l))) ->
  Forall line_ok texts -> file_of texts content ->
  exists s, read_svmlight content = Ok s /\ fst (shape s) = length texts /\ s_target s = map fst lines /\
  forall j, match by_name s (default_name (S j)) with
            | Ok f => (exists l x, In l lines /\ In (j, x) (snd l)) /\
                forall i, (i < length texts)%nat ->
                (forall x, In (j, x) (snd (nth i lines (0, []))) -> feat_index f i = Ok x) /\
                ((forall x, ~ In (j, x) (snd (nth i lines (0, [])))) -> feat_index f i = Ok 0)
            | Panic _ => forall l x, In l lines -> ~ In (j, x) (snd l)
            end.
Proof. exact P_C68_svmlight. Qed.
Print Assumptions C68_svmlight.

(** ** C68: the reader: a path ending in ".csv" is read as CSV and the column named by target_feature becomes the target,
    every other path as SVMLight; without a file name, or without a target for a CSV file, it panics; a missing file is
    reported as an error *)

(** ** C49: set_target panics exactly when no column has that name *)

Theorem C49_set_target_accepts :
  forall s nm, made s -> ((exists s', set_target s nm = Ok s') <-> exists f, In f (s_features s) /\ feat_name f = nm).
Proof. exact P_C49_set_target_accepts. Qed.
Print Assumptions C49_set_target_accepts.

Theorem C68_reader_csv :
  forall (fs : text -> option text) (path : text) (header : list text) (table : list (list text)) (values : list (list R)) (content : text) (k : nat),
  csv_path path -> fs path = Some content ->
  NoDup header -> (forall nm, In nm header -> ~ In ","%char nm) ->
  (forall r, In r table -> length r = length header) -> Forall2 (Forall2 cell) table values ->
  let lines := map (joined [","%char]) (header :: table) in
  Forall line_ok lines -> file_of lines content -> (k < length header)%nat ->
  let target := string_of_list_ascii (nth k header []) in
  exists s, read fs (rd_target_feature (rd_has_header (rd_set_file reader_default path) true) target) = Ok (Some s) /\
    shape s = (length table, (length header - 1)%nat) /\
    length (s_target s) = length table /\
    (forall i, (i < length table)%nat -> nth i (s_target s) 0 = nth k (nth i values []) 0) /\
    forall i j, (i < length table)%nat -> (j < length header)%nat -> j <> k ->
      exists f, by_name s (string_of_list_ascii (nth j header [])) = Ok f /\ feat_index f i = Ok (nth j (nth i values []) 0).
Proof. exact P_C68_reader_csv. Qed.
Print Assumptions C68_reader_csv.

(** any other path is read as SVMLight text; the header flag and the target name play no role *)
Theorem C68_reader_other :
  forall (fs : text -> option text) (r : reader),
  match rd_file r with
  | None => exists q, read fs r = Panic q
  | Some path =>
      (~ csv_path path -> read fs r = match fs path with None => Ok None | Some content => let* s := read_svmlight content in Ok (Some s) end) /\
      (csv_path path -> rd_target r = None -> exists q, read fs r = Panic q) /\
      (fs path = None -> rd_target r <> None -> read fs r = Ok None)
  end.
Proof. exact P_C68_reader_other. Qed.
Print Assumptions C68_reader_other.

(** ** C68: a concrete file: "x,class / 1.5, -1 / .25e1,+1" *)

Example C68_ex :
  let header := [["x"%char]; list_ascii_of_string "class"] in
  let table := [[list_ascii_of_string "1.5"; list_ascii_of_string " -1"]; [list_ascii_of_string ".25e1"; list_ascii_of_string "+1 "]] in
  let values := [[3 / 2; -1]; [5 / 2; 1]] in
  Forall2 (Forall2 cell) table values /\ Forall line_ok (map (joined [","%char]) (header :: table)) /\
  exists content, file_of (map (joined [","%char]) (header :: table)) content.
Proof.
  cbv zeta. split; [|split].
  - assert (B : Forall blank [" "%char]) by (constructor; [do 5 right; left; reflexivity|constructor]).
    assert (D : forall ds, forallb (fun d => Nat.ltb d 10) ds = true -> digits_ok ds) by (intros ds H; apply Forall_forall; intros d Hd; rewrite forallb_forall in H; apply Nat.ltb_lt, H, Hd).
    repeat constructor; red.
    + exists [], (mkLit NoSign [1%nat] (Some [5%nat]) None), []. split; [constructor|]. split; [constructor|]. split; [split; [apply D; reflexivity|split; [apply D; reflexivity|split; [left; discriminate|exact I]]]|]. split; [reflexivity|]. unfold literal_value. simpl. field.
    + exists [" "%char], (mkLit Minus [1%nat] None None), []. split; [exact B|]. split; [constructor|]. split; [split; [apply D; reflexivity|split; [apply D; reflexivity|split; [left; discriminate|exact I]]]|]. split; [reflexivity|]. unfold literal_value. simpl. field.
    + exists [], (mkLit NoSign [] (Some [2%nat; 5%nat]) (Some ("e"%char, NoSign, [1%nat]))), []. split; [constructor|]. split; [constructor|]. split; [split; [apply D; reflexivity|split; [apply D; reflexivity|split; [right; exists 2%nat, [5%nat]; reflexivity|split; [left; reflexivity|split; [apply D; reflexivity|discriminate]]]]]|]. split; [reflexivity|]. unfold literal_value. simpl. field_simplify. lra.
    + exists [], (mkLit Plus [1%nat] None None), [" "%char]. split; [constructor|]. split; [exact B|]. split; [split; [apply D; reflexivity|split; [apply D; reflexivity|split; [left; discriminate|exact I]]]|]. split; [reflexivity|]. unfold literal_value. simpl. field.
  - assert (K : forall l, (forall c, In c l -> c <> LF) -> last l " "%char <> CR -> line_ok l).
    { intros l H1 H2. split; [intros Q; exact (H1 _ Q eq_refl)|]. intros l' ->. apply H2. apply last_last. }
    repeat constructor; apply K; try discriminate; intros c Hc; simpl in Hc; repeat (destruct Hc as [<-|Hc]; [discriminate|]); destruct Hc.
  - eexists. cbn [map]. eapply file_line; [left; reflexivity|]. eapply file_line; [right; reflexivity|]. apply file_last. discriminate.
Qed.

(** header names keep their blanks although values are trimmed: with the header "x, class" there is no column "class" *)
Theorem C68_header_blanks :
  forall content, file_of [list_ascii_of_string "x, class"; list_ascii_of_string "1, 1"] content ->
  exists s, read_csv content true = Ok s /\ map feat_name (s_features s) = ["x"; " class"]%string /\ set_target s "class" = Panic UnwrapNone.
Proof. exact P_C68_header_blanks. Qed.
Print Assumptions C68_header_blanks.
