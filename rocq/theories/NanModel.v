(* NanModel.v -- the program of ProgramModel.v on points whose coordinates need not be numbers, with k-means++ in double
   arithmetic and the files of the preprocessor (definitions only). *)
From Coq Require Import String Ascii List Arith ZArith Bool SpecFloat.
From Verif Require Import Base UtilsModel ArrayListModel FastModel ArgModel PipeModel IoModel KmeansModel MainModel DoubleModel SpecDouble DoubleRuns TextModel SpecText ReadModel.
Import ListNotations.
Local Open Scope list_scope.

(* How the complexes compare a distance that is not a number.  Complex/simplexTree.cpp:36, 39: curE > maxE is false, so curE
   becomes maxE, which is 0 for an edge: the distance counts as 0.  Complex/simplexArrayList.cpp:64: dist <= maxEpsilon is
   false: the distance counts as larger than infinity.  (Pipes/distMatrixPipe.cpp:45 compares with < and stores nothing; here
   it stores 0 for the tree, which line 54 stores anyway.) *)
Definition nan_place (complex : string) : Z := if String.eqb complex "simplexArrayList" then (2 ^ 65 + 1)%Z else 0%Z.

Definition d_max : double := S754_finite false (2 ^ 53 - 1) 971.       (* std::numeric_limits<double>::max() *)
(* Preprocessing/kMeansPlusPlus.cpp:142: the quotient of a sum and a count held in a double (exact below 2 ^ 53). *)
Definition d_div (x : double) (n : nat) : double := SFdiv 53 1024 x (binary_normalize 53 1024 (Z.of_nat n) 0 false).
(* == of two std::vector<double>, used by std::find (kMeansPlusPlus.cpp:73, 85). *)
Fixpoint d_eqb (a b : list double) : bool :=
  match a, b with [], [] => true | x :: a', y :: b' => SFeqb x y && d_eqb a' b' | _, _ => false end.

(* Preprocessing/preprocessor.cpp:85-86, 91-116 outputData: the files that a preprocessor writes; the directory output is
   supposed to exist. *)
Definition pre_files (name : string) (data : list (list double)) (labels : list nat) : list (string * text) :=
  [(("output/" ++ name ++ "_centroid_output.csv")%string, flat_map (fun row => flat_map (fun d => to_string d ++ [comma]) row ++ [newline]) data);
   (("output/" ++ name ++ "_label_output.csv")%string, flat_map (fun a => show (Z.of_nat a) ++ [newline]) labels)].
(* procName: preprocessor.hpp:11 (never written, it is never configured), kMeansPlusPlus.cpp:21, streamingKmeans.cpp:24, denStream.cpp:85. *)
Definition pre_name (k : pre_kind) : string :=
  match k with KKMeans => "k-means++" | KStreamingKMeans => "streamingKmeans" | KDenStream => "DenStream" | KNoPreprocessor => "preprocessor" end.

Section Program.
  Variable square : double -> double.               (* pow(x, 2) *)
  (* utils::vectors_distance of coded points, as the complexes compare it; coordinates are coded as in DoubleRuns.v. *)
  Definition coded_dist (nan : Z) (a b : list Z) : Z :=
    match d_distance square (map of_whole a) (map of_whole b) with Ok S754_nan => nan | Ok v => rank v | UB => 0%Z end.
  (* The distance inside k-means (Preprocessing/kMeansPlusPlus.cpp:119); points of different length are left out. *)
  Definition km_dist (a b : list double) : double := match d_distance square a b with Ok v => v | UB => S754_nan end.

  (* The random draws of k-means++ (KmeansModel.v). *)
  Variable index : nat.
  Variable picks : list (nat * (nat -> bool)).
  (* Preprocessing/kMeansPlusPlus.cpp:28-164 on doubles; negative numbers of clusters and 0 as in LinkModel.v. *)
  Definition kmeans_doubles (num_clusters num_iterations : Z) (data : list (list double)) : res (list (list double) * list nat) :=
    if (num_clusters <? 0)%Z then UB
    else km_run double d_zero d_max d_add d_div SFltb km_dist d_eqb data (Z.to_nat num_clusters) (Z.to_nat num_iterations) index picks.

  Variable pre_other : pre_kind -> amap -> packet -> res packet.     (* the other preprocessors *)
  Definition arg_int (args : amap) (k : string) : Z := ReadModel.atoi (list_ascii_of_string (opt args k)).
  (* runPreprocessor: kMeansPlusPlus.cpp:159-163 assigns originalData and originalLabels. *)
  Definition pre_doubles (k : pre_kind) (args : amap) (p : packet) : res packet :=
    match k with
    | KKMeans =>
        do r <- kmeans_doubles (arg_int args "clusters") (arg_int args "iterations") (map (map of_whole) (pk_data p));
        Ok (mkPacket (map (map to_whole) (fst r)) (snd r) (pk_full p) (pk_weights p) (pk_complex p) (pk_output p) (pk_table p) (pk_stats p))
    | _ => pre_other k args p
    end.
  (* What the preprocessor that the options name writes when it is run on a packet (LHFmain/main.cpp:73-84). *)
  Definition pre_written (args : amap) (p : packet) : res (list (string * text)) :=
    match newPreprocessor (opt args "preprocessor") with
    | None => Ok []
    | Some k =>
        let (ok, configured) := configPreprocessor k args in
        if (ok && configured)%bool then do q <- pre_doubles k args p; Ok (pre_files (pre_name k) (map (map of_whole) (pk_data q)) (pk_labels q))
        else Ok []
    end.

  Variable srt : list wsimp -> list wsimp.
  Variable past_end : list nat -> nat -> res nat.
  Variable nc0 : Z.
  Variable al_reduce : wgraph -> res wgraph.
  Variable other : pipe_kind -> amap -> packet -> res packet.
  Variable uaf : res unit.
  Variable file : string -> option text.            (* the files that can be opened *)

  (* LHFmain/main.cpp:232-305 main: the names and texts of the files written by the preprocessor and of the barcode files, in
     this order, for the complexes simplexTree and simplexArrayList and one run of a pipeline (modes other than reduced). *)
  Definition lhf_files (argv : list string) : res (list (string * text)) :=
    do m <- parse argv;
    let args := setPipeline m in
    let sd := fun t => option_map to_whole (ReadModel.stod t) in
    do r <- lhf (coded_dist (nan_place (opt args "complexType"))) (fun s => ReadModel.atoi (list_ascii_of_string s))
              (fun s => rank (ReadModel.atof (list_ascii_of_string s))) srt past_end nc0 al_reduce other pre_doubles (fun _ p => Ok p) uaf sd file argv;
    match r, readCSV Z sd (file (opt args "inputFile")) with
    | Ran _ files, Some data =>
        do w <- pre_written args (mkPacket data [] data [] None [] [] []);
        Ok (w ++ map (fun f => (fst f, barcode_text at_place (snd f))) files)
    | _, _ => Ok []
    end.
End Program.
