(* SpecCompare.v -- vocabulary for the statements that compare two runs of the program from text to text. *)
From Coq Require Import String Ascii List Arith ZArith Bool SpecFloat.
From Verif Require Import Base ArgModel PipeModel SpecPipe MainModel SpecMain IoModel SpecIo DoubleModel SpecDouble TextModel SpecText SpecRead SpecComplex SpecProgram NanModel SpecNan.
Import ListNotations.
Local Open Scope nat_scope.
Local Open Scope list_scope.

(* The result of a run of the default pipeline (complex c, dimension dim, threshold eps, no preprocessor) that writes its
   barcodes to the file o.csv, on an input file whose points are [cloud].  The option texts, the blank lines, the sort, the
   allocator and everything else that the program leaves open may be any that the rest of the development allows. *)
Definition results (square : double -> double) (past_end : list nat -> nat -> res nat) (c : cx_type) (dim : Z) (eps : double)
    (cloud : list (list double)) (o : string) (result : res (list (string * text))) : Prop :=
  exists index picks pre_other srt nc0 al_reduce other uaf file argv d e f lines rs,
    is_sort srt /\ plain_line argv c d e f o /\ o <> "console"%string /\
    reads_number (list_ascii_of_string d) dim /\ (0 < dim < 2 ^ 31 - 1)%Z /\
    reads_as (list_ascii_of_string e) eps /\ non_negative eps /\
    file f = Some (join newline lines) /\ Forall2 line_gives lines rs /\ cloud = kept rs /\ cloud <> [] /\
    (forall p q, In p cloud -> In q cloud -> length p = length q) /\
    result = lhf_files square index picks pre_other srt past_end nc0 al_reduce other uaf file argv.

(* The only file written is o.csv, with the bars of the cloud: the deaths of dimension 0, epsilon, and the other bars. *)
Definition shows (square : double -> double) (c : cx_type) (eps : double) (cloud : list (list double)) (o : string)
    (files : list (string * text)) (deaths : list double) (bars : list (nat * double * double)) : Prop :=
  files = [((o ++ ".csv")%string, barcodes deaths eps bars)] /\ bars_of square cloud c eps deaths bars.

(* No two pairs of points are at the same distance, as the complex takes distances. *)
Definition all_distances_differ (square : double -> double) (cloud : list (list double)) (c : cx_type) : Prop :=
  forall u v u' v' w, u < v -> u' < v' -> seen_apart square cloud c u v w -> seen_apart square cloud c u' v' w -> u = u' /\ v = v'.

(* The comparison with the threshold as a test. *)
Definition withinb (c : cx_type) (eps w : double) : bool := match c with Tree => SFltb w eps | ArrayList => SFleb w eps end.
Definition bars_in (k : nat) (bars : list (nat * double * double)) : list (nat * double * double) := filter (fun l => fst (fst l) =? k) bars.
