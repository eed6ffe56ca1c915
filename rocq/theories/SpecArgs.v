(* SpecArgs.v -- vocabulary for the statements about command lines and pipelines. *)
From Coq Require Import List Arith Bool String Ascii.
From Verif Require Import Base ArgModel.
Import ListNotations.
Open Scope string_scope.

(* The options of the program: long name, short name, default. *)
Definition options : list (string * string * string) :=
  [("mpi","a","0"); ("mode","m","standard"); ("dimensions","d","1"); ("iterations","r","250"); ("pipeline","p","");
   ("inputFile","i","None"); ("outputFile","o","output.csv"); ("epsilon","e","5"); ("lambda","l",".25"); ("debug","x","0");
   ("complexType","c","simplexTree"); ("clusters","k","20"); ("preprocessor","pre",""); ("upscale","u","false");
   ("twist","t","false"); ("collapse","z","false")].
Definition is_long (k : string) : Prop := exists s d, In (k, s, d) options.
Definition is_short (k : string) : Prop := exists l d, In (l, k, d) options.

(* The word f is a flag for the name k: two dashes, or one dash and a name that does not begin with a dash. *)
Definition flag (f k : string) : Prop := f = "--" ++ k \/ (f = "-" ++ k /\ forall r, k <> "-" ++ r).
(* The i-th pair of words of the command line gives k the value v. *)
Definition given (argv : list string) (i : nat) (k v : string) : Prop :=
  exists f, nth_error argv (2 * i) = Some f /\ nth_error argv (2 * i + 1) = Some v /\ flag f k.
Definition last_given (argv : list string) (k v : string) : Prop :=
  exists i, given argv i k v /\ forall j w, given argv j k w -> j <= i.
Definition never_given (argv : list string) (k : string) : Prop := forall i v, ~ given argv i k v.

(* What a mode stands for: the pipeline, the preprocessor, and the options it overrides. *)
Inductive choice : Type := Keep | Unless_given (s : string) | Always (s : string).
Record plan : Type := mkPlan { pl_pipeline : string; pl_preprocessor : choice; pl_upscale : choice; pl_complexType : choice }.
Definition default_pipeline := "distMatrix.neighGraph.rips.fastPersistence".
Definition mpi_plan : plan := mkPlan default_pipeline (Unless_given "kmeans++") (Always "true") Keep.
Definition plans : list (string * plan) :=
  [("standard", mkPlan default_pipeline Keep Keep Keep);
   ("reduced", mkPlan default_pipeline (Unless_given "kmeans++") (Always "false") (Always "simplexTree"));
   ("upscaleBound", mkPlan "distMatrix.neighGraph.rips.persistence.boundary.upscale" (Unless_given "kmeans++") (Always "true") Keep);
   ("stream", mkPlan default_pipeline (Unless_given "streamingkmeans") Keep Keep);
   ("sw", mkPlan "slidingwindow" (Always "") (Always "false") (Always "simplexTree"));
   ("slidingwindow", mkPlan "slidingwindow" (Always "") (Always "false") (Always "simplexTree"));
   ("fast", mkPlan default_pipeline Keep (Always "false") (Always "simplexTree"));
   ("naive", mkPlan "naivewindow" (Always "") (Always "false") (Always "simplexTree"));
   ("naivewindow", mkPlan "naivewindow" (Always "") (Always "false") (Always "simplexTree"))].
(* The plan that applies: that of mpi; none if a pipeline is given or the mode is unknown; else that of the mode. *)
Definition applies (m : amap) (pl : option plan) : Prop :=
  (mget m "mpi" = Some "1" /\ pl = Some mpi_plan) \/
  (mget m "mpi" <> Some "1" /\ mget m "pipeline" <> Some "" /\ pl = None) \/
  (mget m "mpi" <> Some "1" /\ mget m "pipeline" = Some "" /\
     exists mode, mget m "mode" = Some mode /\
       ((exists q, In (mode, q) plans /\ pl = Some q) \/ (~ In mode (map fst plans) /\ pl = None))).
Definition chosen (c : choice) (old : option string) : option string :=
  match c with
  | Keep => old
  | Unless_given s => match old with Some "" => Some s | _ => old end
  | Always s => Some s
  end.
Definition planned (p : plan) (k : string) (old : option string) : option string :=
  if String.eqb k "pipeline" then Some (pl_pipeline p)
  else if String.eqb k "preprocessor" then chosen (pl_preprocessor p) old
  else if String.eqb k "upscale" then chosen (pl_upscale p) old
  else if String.eqb k "complexType" then chosen (pl_complexType p) old
  else old.

(* The components of a pipeline string: dot-free parts that give the string when joined with dots. *)
Fixpoint dot_free (s : string) : Prop := match s with EmptyString => True | String c r => c <> "."%char /\ dot_free r end.
Definition components_of (s : string) (parts : list string) : Prop :=
  parts <> [] /\ Forall dot_free parts /\ String.concat "." parts = s.

(* The names of pipes and preprocessors. *)
Definition pipe_names : list (string * pipe_kind) :=
  [("distMatrix", KDistMatrix); ("neighGraph", KNeighGraph); ("rips", KRips); ("upscale", KUpscale);
   ("boundary", KBoundary); ("slidingwindow", KSlidingWindow); ("sliding", KSlidingWindow);
   ("fastPersistence", KFastPersistence); ("fast", KFastPersistence); ("naivewindow", KNaiveWindow); ("naive", KNaiveWindow)].
Definition persistence_for (complexType : string) (k : pipe_kind) : Prop :=
  ((complexType = "simplexArrayList" \/ complexType = "simplexTree") /\ k = KPersistencePairs) \/
  (complexType = "indSimplexTree" /\ k = KOptPersistencePairs).
Definition pre_names : list (string * pre_kind) :=
  [("none", KNoPreprocessor);
   ("kmeansplusplus", KKMeans); ("kmeans++", KKMeans); ("kmeans", KKMeans);
   ("streamingKmeans", KStreamingKMeans); ("streamingkmeans", KStreamingKMeans); ("streamKM", KStreamingKMeans);
   ("denStream", KDenStream); ("denstream", KDenStream); ("DenStream", KDenStream)].

(* One component of a pipeline: created and configured it transforms the packet; otherwise it is reported. *)
Section Steps.
  Variable packet : Type.
  Variable run : pipe_kind -> amap -> packet -> res packet.
  Variable add_stats : pipe_kind -> packet -> res packet.
  Inductive step (args : amap) (c : string) (p : packet) : res packet -> bool -> Prop :=
  | step_unknown : (forall k, ~ In (c, k) pipe_names) ->
      (c = "persistence" -> forall ct k, mget args "complexType" = Some ct -> ~ persistence_for ct k) ->
      step args c p (Ok p) true
  | step_unconfigured k : newPipe c (fst (mread args "complexType")) = Some k ->
      (exists o, In o (pipe_required k) /\ mget args o = None) -> step args c p (Ok p) true
  | step_runs k : newPipe c (fst (mread args "complexType")) = Some k ->
      (forall o, In o (pipe_required k) -> mget args o <> None) ->
      step args c p (do p1 <- run k args p; add_stats k p1) false.
  (* The components one after the other, each on the packet the one before returned; the failed ones, in order. *)
  Inductive steps (args : amap) : list string -> packet -> res (packet * list string) -> Prop :=
  | steps_nil p : steps args [] p (Ok (p, []))
  | steps_ub c cs p b : step args c p UB b -> steps args (c :: cs) p UB
  | steps_cons c cs p p' (b : bool) r : step args c p (Ok p') b -> steps args cs p' r ->
      steps args (c :: cs) p (rmap (fun '(q, failed) => (q, if b then c :: failed else failed)) r).
End Steps.
