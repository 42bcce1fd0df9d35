(** Model of the scripts that train a transform: hyperion/bin/train-mvn.py, train-pca.py, train-nda.py, train-lda.py, train-cw.py, train-cw-up.py and
    train-gaussianizer.py, from the parsed options on and with --input-path not given; all share lines "preproc ... save". Transforms, files, saving and
    loading are those of ModelIO.v. The training data (what VectorReader or VectorClassReader read before the preprocessing) is an abstract value, and so
    are what a transform does to it ([apply1]) and the parameters a fit computes from it ([g_fit]; they depend on the data only). *)
From Verif Require Export Base ModelIO.
From Verif Require Import Str.
Open Scope list_scope. Open Scope Z_scope.

Inductive script := TrainMvn | TrainPca | TrainNda | TrainLda | TrainCw | TrainCwUp | TrainGauss.
(** train-mvn.py:42, train-pca.py:30, train-nda.py:46, train-lda.py:42, train-cw.py:30-34, train-cw-up.py:30-34, train-gaussianizer.py:31 *)
Definition script_cls (s : script) (with_lnorm : bool) : tcls :=
  match s with
  | TrainMvn => MVN | TrainPca => PCA | TrainNda => NDA | TrainLda => LDA | TrainGauss => Gaussianizer
  | TrainCw => if with_lnorm then LNorm else CentWhiten
  | TrainCwUp => if with_lnorm then LNormUP else CentWhitenUP
  end.
(** train-cw.py:70-73, train-cw-up.py:70-73, train-nda.py:51-54, train-lda.py:47-50: statistics of the transformed training data, for the log *)
Definition script_checks (s : script) : bool := match s with TrainNda | TrainLda | TrainCw | TrainCwUp => true | _ => false end.

Section Chain.
Context {A X : Type} (r32 : A -> A) (ncols : A -> Z) (apply1 : tcls -> list (option A) -> X -> res X).
(** one run of a script: its options, its training data, and the two computations left abstract *)
Record stage := mk_stage {
  g_script : script; g_lnorm : bool; g_name : string; g_tlist : bool; g_append : bool; g_dir : string; g_data : X;
  g_upd_mu : bool; g_upd_T : bool; g_dim : option Z;
  g_fit : X -> res (list (option A)); g_check : X -> res unit }.
Definition file := (cfg * list (string * A))%type.
(** TransformList.load (hyp_model.py:103-107, transform_list.py:76-85): the file of a single transform has no 'transforms' *)
Definition load_list (f : file) : res (tr A) := match fst f with CLeaf _ _ _ _ _ => Err KeyError | CList _ _ => load ncols f end.
(** train-mvn.py:31-54, and the same lines of the others *)
Definition train (g : stage) (pre : option file) : res file :=
  pp <- (match pre with None => Ok None | Some f => t <- load_list f ;; Ok (Some t) end : res (option (tr A))) ;;
  x <- match pp with None => Ok (g_data g) | Some t => predict apply1 t (g_data g) end ;;
  ps <- g_fit g x ;;
  let m := Leaf (mk_leaf (script_cls (g_script g) (g_lnorm g)) (Some (g_name g)) ps (g_upd_mu g) (g_upd_T g) (g_dim g)) in
  _ <- (if script_checks (g_script g) then y <- predict apply1 m x ;; g_check g y else Ok tt) ;;
  out <- (if g_tlist g then
            match (if g_append g then pp else None) with
            | Some t => ModelIO.append t m
            | None => make_list None [m]
            end
          else Ok m : res (tr A)) ;;
  save r32 (g_dir g) out.
(** the whole script: train-lda.py:78-87 reads args.verbose, which its parser does not define *)
Definition run_script (g : stage) (pre : option file) : res file := match g_script g with TrainLda => Err AttributeError | _ => train g pre end.
(** the scripts run one after the other, each with the output of the one before as --preproc-file *)
Fixpoint run_chain (gs : list stage) (pre : option file) : res (option file) :=
  match gs with [] => Ok pre | g :: gs => f <- run_script g pre ;; run_chain gs (Some f) end.
End Chain.
