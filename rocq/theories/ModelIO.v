(** Model of hyperion/hyp_model.py (HypModel.save, load) and of the transforms' save_params / load_params: hyperion/transforms/cent_whiten.py,
    cent_whiten_up.py, lnorm.py, lnorm_up.py, pca.py, lda.py, nda.py, nap.py, mvn.py, gaussianizer.py, transform_list.py, sb_sw.py.
    Arrays are an abstract type [A]; [r32] is the cast to the type used for saving (hyp_defs.float_save, float32) and back.
    The HDF5 file is the configuration and a list of (path, array). Paths are compared as strings: h5py's normalisation of empty path
    components is not modelled. JSON gives back the configuration it was given (numbers of children become strings and are looked up as
    strings), so the configuration is a tree of records here. *)
From Verif Require Export Base.
From Verif Require Import Str.
Open Scope list_scope. Open Scope Z_scope.

Inductive tcls := CentWhiten | CentWhitenUP | LNorm | LNormUP | PCA | LDA | NDA | NAP | MVN | Gaussianizer.
(** param_list of the load_params methods (cent_whiten.py:89-92, pca.py:85-88, lda.py:86-98, nda.py:60-72, nap.py:50-62, mvn.py:45-48, gaussianizer.py:76-79) *)
Definition param_names (c : tcls) : list string :=
  match c with
  | CentWhiten | CentWhitenUP | LNorm | LNormUP | PCA | LDA | NDA => ["mu"; "T"]%string
  | MVN => ["mu"; "s"]%string
  | NAP => ["U"]%string
  | Gaussianizer => ["r"]%string
  end.

Section IO.
Context {A : Type} (r32 : A -> A) (ncols : A -> Z).

(** A transform object: class, name, parameters in the order of [param_names] (None = not set), update_mu and update_T,
    and the dimension argument (pca_dim, lda_dim, max_vectors). *)
Record leaf := mk_leaf { lf_cls : tcls; lf_name : option string; lf_params : list (option A); lf_upd_mu : bool; lf_upd_T : bool; lf_dim : option Z }.
Inductive tr := Leaf (l : leaf) | TList (name : option string) (ts : list tr).
Definition tr_name (t : tr) : option string := match t with Leaf l => lf_name l | TList n _ => n end.
Definition set_name (n : option string) (t : tr) : tr :=
  match t with Leaf l => Leaf (mk_leaf (lf_cls l) n (lf_params l) (lf_upd_mu l) (lf_upd_T l) (lf_dim l)) | TList _ ts => TList n ts end.

(** transform_list.py:55-58: [self.name + '/' + t.name]; a transform without a name is a TypeError *)
Definition prefixed (n : string) (t : tr) : res tr :=
  match tr_name t with Some m => Ok (set_name (Some (n ++ "/" ++ m)%string) t) | None => Err TypeError end.
(** transform_list.py:34-40, the constructor applied to a list *)
Definition make_list (name : option string) (ts : list tr) : res tr :=
  match name with None => Ok (TList None ts) | Some n => ts <- mapM (prefixed n) ts ;; Ok (TList name ts) end.
(** transform_list.py:43-46 *)
Definition append (t : tr) (x : tr) : res tr :=
  match t with
  | TList None ts => Ok (TList None (ts ++ [x]))
  | TList (Some n) ts => x <- prefixed n x ;; Ok (TList (Some n) (ts ++ [x]))
  | Leaf _ => Err AttributeError
  end.

(** *** The file *)
Definition h5 := list (string * A).
Definition under (p q : string) : bool := String.prefix (p ++ "/")%string q.
(** a data set can be created if no data set has the path, lies below it, or is a component of it; the data set 'config' exists already *)
Definition path_free (f : h5) (p : string) : bool :=
  forallb (fun q => negb (String.eqb p q) && negb (under p q) && negb (under q p)) ("config"%string :: map fst f).
Definition create_dataset (f : h5) (p : string) (v : A) : res h5 :=
  if path_free f p then Ok (f ++ [(p, v)]) else Err ValueError.
Definition full_path (name : option string) (k : string) : string := match name with None => k | Some n => (n ++ "/" ++ k)%string end.

(** hyp_model.py:73-87 *)
Fixpoint save_dict (f : h5) (name : option string) (l : list (string * option A)) : res h5 :=
  match l with
  | [] => Ok f
  | (_, None) :: l => save_dict f name l
  | (k, Some v) :: l => f <- create_dataset f (full_path name k) (r32 v) ;; save_dict f name l
  end.
Definition save_leaf (f : h5) (l : leaf) : res h5 := save_dict f (lf_name l) (combine (param_names (lf_cls l)) (lf_params l)).
(** transform_list.py:70-72: in order *)
Fixpoint save_params (f : h5) (t : tr) : res h5 :=
  match t with
  | Leaf l => save_leaf f l
  | TList _ ts => (fix go f ts := match ts with [] => Ok f | t :: ts => f <- save_params f t ;; go f ts end) f ts
  end.

(** get_config (hyp_model.py:132-136, cent_whiten.py:73-77, pca.py:68-73, lda.py:71-76, gaussianizer.py:61-65, transform_list.py:61-67) *)
Inductive cfg := CLeaf (c : tcls) (name : option string) (upd_mu upd_T : bool) (dim : option Z) | CList (name : option string) (ts : list cfg).
Fixpoint get_config (t : tr) : cfg :=
  match t with
  | Leaf l => CLeaf (lf_cls l) (lf_name l) (lf_upd_mu l) (lf_upd_T l) (lf_dim l)
  | TList n ts => CList n (map get_config ts)
  end.
(** hyp_model.py:58-65: os.makedirs('') fails for a path without a directory (os.path.dirname gives '') *)
Definition save (dir : string) (t : tr) : res (cfg * h5) :=
  if String.eqb dir "" then Err IOErr else f <- save_params [] t ;; Ok (get_config t, f).

(** hyp_model.py:116-128: [f[path]], KeyError if there is none *)
Definition lookup (f : h5) (p : string) : res A := match find (fun e => String.eqb p (fst e)) f with Some e => Ok (snd e) | None => Err KeyError end.
Definition load_dict (f : h5) (name : option string) (ks : list string) : res (list A) := mapM (fun k => lookup f (full_path name k)) ks.
(** the load_params methods: which arguments reach the constructor. LDA's constructor takes the dimension from T (lda.py:21-30). *)
Definition load_leaf (f : h5) (c : tcls) (name : option string) (dim : option Z) : res tr :=
  vs <- load_dict f name (param_names c) ;;
  let dim' := match c with
              | PCA | Gaussianizer => dim
              | LDA => option_map ncols (nth_error vs 1)
              | _ => None
              end in
  Ok (Leaf (mk_leaf c name (map Some vs) true true dim')).
(** transform_list.py:76-85 *)
Fixpoint load_params (f : h5) (c : cfg) : res tr :=
  match c with
  | CLeaf c n _ _ d => load_leaf f c n d
  | CList n cs => ts <- (fix go cs := match cs with [] => Ok [] | c :: cs => t <- load_params f c ;; ts <- go cs ;; Ok (t :: ts) end) cs ;;
                  make_list n ts
  end.
(** hyp_model.py:103-107 *)
Definition load (file : cfg * h5) : res tr := load_params (snd file) (fst file).

(** *** Application: transform_list.py:49-52; what one transform does depends on its class and its parameters *)
Context {X : Type} (apply1 : tcls -> list (option A) -> X -> res X).
Fixpoint predict (t : tr) (x : X) : res X :=
  match t with
  | Leaf l => apply1 (lf_cls l) (lf_params l) x
  | TList _ ts => (fix go ts x := match ts with [] => Ok x | t :: ts => x <- predict t x ;; go ts x end) ts x
  end.
End IO.
Arguments leaf A : clear implicits. Arguments tr A : clear implicits.

(** *** sb_sw.py:22-27: the constructor ignores its statistics; 61-71 accum_stats; 85-91 load ([self] does not exist) *)
Section SbSw.
Context {M : Type} (madd : M -> M -> M) (mzero_like : M -> M).
Record sbsw := mk_sbsw { sb_Sb : option M; sb_Sw : option M; sb_mu : option M; sb_num : Z }.
Definition sbsw_new (Sb Sw mu : option M) (num : Z) : sbsw := mk_sbsw None None None num.
Definition accum_stats (stats : list sbsw) : res sbsw :=
  match stats with
  | [] => Err IndexError
  | s0 :: _ =>
    match sb_mu s0, sb_Sb s0, sb_Sw s0 with
    | Some mu, Some Sb, Some Sw =>
      let step acc s := '(mu, Sb, Sw, n) <- acc ;;
        match sb_mu s, sb_Sb s, sb_Sw s with
        | Some mu', Some Sb', Some Sw' => Ok (madd mu mu', madd Sb Sb', madd Sw Sw', n + sb_num s)
        | _, _, _ => Err TypeError
        end in
      '(mu, Sb, Sw, n) <- fold_left step stats (Ok (mzero_like mu, mzero_like Sb, mzero_like Sw, 0)) ;;
      Ok (sbsw_new (Some Sb) (Some Sw) (Some mu) n)
    | _, _, _ => Err TypeError
    end
  end.
Definition sbsw_load : res sbsw := Err NameError.
End SbSw.
