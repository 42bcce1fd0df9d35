(** Model of hyperion/metrics/{roc,dcf,eer,utils}.py.
    Simplifications: scores are elements of any totally ordered type (no NaN); probabilities, priors and
    costs are exact rationals. np.argsort(kind='mergesort') is a library function: it is modelled by a
    stable sort of the positions, which determines its result uniquely. Plotting is not modelled. *)
From Coq Require Import QArith.
From Verif Require Export Pav.
Open Scope list_scope.

(** np.argsort(scores, kind='mergesort') *)
Fixpoint sort_in {S} `{Ord S} (key : list S) (i : nat) (l : list nat) : list nat :=
  match l with
  | [] => [i]
  | j :: l' =>
    match nth_error key i, nth_error key j with
    | Some a, Some b => if leb a b then i :: l else j :: sort_in key i l'
    | _, _ => i :: l
    end
  end.
Definition argsort {S} `{Ord S} (key : list S) : list nat := fold_right (sort_in key) [] (seq 0 (len key)).

(** a[idx] for an array of positions *)
Definition gather {A} (a : list A) (idx : list nat) : res (list A) := take a (map Z.of_nat idx).

Definition qz (z : Z) : Q := inject_Z z.

(** np.cumsum *)
Fixpoint cumsumZ (a : Z) (l : list Z) : list Z := match l with [] => [] | x :: l => (a + x)%Z :: cumsumZ (a + x) l end.

(** roc.py:17-55 compute_roc: the vectors p_miss and p_fa *)
Definition compute_roc {S} `{Ord S} (tar non : list S) : res (list Q * list Q) :=
  let nt := Z.of_nat (len tar) in let nn := Z.of_nat (len non) in
  _ <- assert (0 <? nt)%Z ;;
  _ <- assert (0 <? nn)%Z ;;
  let scores := tar ++ non in
  labels <- gather (repeat 1%Z (len tar) ++ repeat 0%Z (len non)) (argsort scores) ;;
  let sumtrue := cumsumZ 0 labels in
  let sumfalse := zip_with (fun k s => (nn - (k + 1 - s))%Z) (arange 0 (nt + nn)) sumtrue in
  Ok (0%Q :: map (fun s => qz s / qz nt)%Q sumtrue, 1%Q :: map (fun s => qz s / qz nn)%Q sumfalse).

(** roc.py:91-105: the loop over the bins; each step emits the vertex for the current threshold *)
Fixpoint rocch_loop (P : list Q) (N : nat) (nt nn : Q) (left : nat) (miss fa : Q) (width : list nat) : list (Q * Q) :=
  ((miss / nt)%Q, (fa / nn)%Q) ::
  match width with
  | [] => []
  | w :: width =>
    let left := (left + w)%nat in
    rocch_loop P N nt nn left (fold_right Qplus 0%Q (firstn left P))
      (qz (Z.of_nat N) - qz (Z.of_nat left) - fold_right Qplus 0%Q (skipn left P))%Q width
  end.

(** roc.py:59-107 compute_rocch: the list of the vertices (p_miss, p_fa). With an empty score list the
    first division raises ZeroDivisionError (both empty: the assertion in pavx). *)
Definition compute_rocch {S} `{Ord S} (tar non : list S) : res (list (Q * Q)) :=
  let nt := len tar in let nn := len non in
  let scores := tar ++ non in
  P <- gather (repeat 1%Q nt ++ repeat 0%Q nn) (argsort scores) ;;
  '(_, width, _) <- pavx P ;;
  match nt, nn with
  | O, _ | _, O => Err ZeroDivisionError
  | _, _ => Ok (rocch_loop P (nt + nn) (qz (Z.of_nat nt)) (qz (Z.of_nat nn)) 0 0%Q (qz (Z.of_nat nn)) width)
  end.

Fixpoint qsorted (l : list Q) : bool :=
  match l with
  | a :: (b :: _) as r => Qle_bool a b && qsorted r
  | _ => true
  end.

(** roc.py:129-143: the candidate of one segment. sla.solve is modelled by Cramer's rule (LinAlgError,
    here RuntimeErr, when the determinant is zero). *)
Definition eer_seg (p q : Q * Q) : res Q :=
  let (m0, f0) := p in let (m1, f1) := q in
  if Qeq_bool (f0 - f1)%Q 0 || Qeq_bool (m0 - m1)%Q 0 then Ok 0%Q else
  let det := (f0 * m1 - m0 * f1)%Q in
  if Qeq_bool det 0 then Err RuntimeErr else
  let a := ((m1 - m0) / det)%Q in let b := ((f0 - f1) / det)%Q in
  Ok (1 / (a + b))%Q.

Definition qmax (a b : Q) : Q := if Qle_bool a b then b else a.

Fixpoint eer_loop (eer : Q) (vs : list (Q * Q)) : res Q :=
  match vs with
  | p :: (q :: _) as r => e <- eer_seg p q ;; eer_loop (qmax eer e) r
  | _ => Ok eer
  end.

(** roc.py:110-145 rocch2eer *)
Definition rocch2eer (vs : list (Q * Q)) : res Q :=
  _ <- assert (qsorted (map fst vs)) ;;
  _ <- assert (qsorted (rev (map snd vs))) ;;
  eer_loop 0%Q vs.

(** eer.py:15-26 *)
Definition compute_eer {S} `{Ord S} (tar non : list S) : res Q :=
  vs <- compute_rocch tar non ;; rocch2eer vs.

(** eer.py:30-44 *)
Definition scaled (nt nn : nat) (vs : list (Q * Q)) : list (Q * Q) :=
  map (fun v => (fst v * qz (Z.of_nat nt), snd v * qz (Z.of_nat nn))%Q) vs.
Definition compute_prbep {S} `{Ord S} (tar non : list S) : res Q :=
  vs <- compute_rocch tar non ;; rocch2eer (scaled (len tar) (len non) vs).

Definition qmin (a b : Q) : Q := if Qle_bool a b then a else b.

(** dcf.py:14-36 compute_dcf for one prior (strictly between 0 and 1; numpy's division by zero for the
    priors 0 and 1 is not modelled) *)
Definition dcf_one (prior : Q) (normalize : bool) (v : Q * Q) : Q :=
  let d := (prior * fst v + (1 - prior) * snd v)%Q in
  if normalize then (d / qmin prior (1 - prior))%Q else d.

(** np.argmin: the first smallest element *)
Fixpoint argmin_from (best : Q) (k i : nat) (l : list Q) : nat :=
  match l with
  | [] => k
  | x :: l => if Qle_bool best x then argmin_from best k (S i) l else argmin_from x i (S i) l
  end.
Definition argmin (l : list Q) : res nat := match l with [] => Err ValueError | x :: l => Ok (argmin_from x 0 1 l) end.

(** dcf.py:40-69 compute_min_dcf for one prior *)
Definition compute_min_dcf {S} `{Ord S} (tar non : list S) (prior : Q) (normalize : bool) : res (Q * Q * Q) :=
  vs <- compute_rocch tar non ;;
  let dcf := map (dcf_one prior normalize) vs in
  i <- argmin dcf ;;
  d <- rd dcf i ;; v <- rd vs i ;;
  Ok (d, fst v, snd v).
(** the same for a vector of priors: one row per prior *)
Definition compute_min_dcfs {S} `{Ord S} (tar non : list S) (priors : list Q) (normalize : bool) : res (list (Q * Q * Q)) :=
  mapM (fun p => compute_min_dcf tar non p normalize) priors.

(** dcf.py:103-108 and 111-116: ranks of the thresholds in the joint sort, minus their ranks among the thresholds *)
Definition rank_counts {S} `{Ord S} (t scores : list S) : res (list Z) :=
  let joint := t ++ scores in
  let ii := argsort joint in
  r <- set_items (repeat 0%Z (len joint)) (map Z.of_nat ii) (arange 1 (Z.of_nat (len joint) + 1)) ;;
  let r := firstn (len t) r in
  Ok (zip_with Z.sub r (rev (arange 1 (Z.of_nat (len t) + 1)))).

(** dcf.py:73-140 compute_act_dcf; [thr] is the map prior -> -log(prior) + log(1-prior) *)
Definition compute_act_dcf {S} `{Ord S} (thr : Q -> S) (tar non : list S) (priors : list Q) (normalize : bool) : res (list Q * list Q * list Q) :=
  _ <- assert (qsorted priors) ;;
  let t := map thr priors in
  n_miss <- rank_counts t tar ;;
  below <- rank_counts t non ;;
  let n_fa := map (fun b => (Z.of_nat (len non) - b)%Z) below in
  let p_miss := map (fun n => qz n / qz (Z.of_nat (len tar)))%Q n_miss in
  let p_fa := map (fun n => qz n / qz (Z.of_nat (len non)))%Q n_fa in
  let vs := combine p_miss p_fa in
  Ok (zip_with (fun p v => dcf_one p normalize v) priors vs, p_miss, p_fa).

(** dcf.py:144-172 fast_eval_dcf_eer for one prior *)
Definition fast_eval {S} `{Ord S} (thr : Q -> S) (tar non : list S) (prior : Q) (normalize : bool) : res (Q * Q * Q * Q) :=
  vs <- compute_rocch tar non ;;
  eer <- rocch2eer vs ;;
  prbep <- rocch2eer (scaled (len tar) (len non) vs) ;;
  min_dcf <- match map (dcf_one prior normalize) vs with [] => Err ValueError | x :: l => Ok (fold_left qmin l x) end ;;
  '(act, _, _) <- compute_act_dcf thr tar non [prior] normalize ;;
  a <- rd act 0 ;;
  Ok (min_dcf, a, eer, prbep).

(** utils.py:17-31 effective_prior *)
Definition effective_prior (p_tar c_miss c_fa : Q) : Q :=
  let beta := (p_tar * c_miss / (1 - p_tar) / c_fa)%Q in (beta / (1 + beta))%Q.

(** roc.py:149-186 filter_roc: one turn of the loop; the state is out, new_p_miss, new_p_fa *)
Definition filter_turn (pm pf : list Q) (st : nat * list Q * list Q) (i : nat) : res (nat * list Q * list Q) :=
  let '(out, nm, nf) := st in
  mi <- rd pm i ;; mo <- rd nm out ;;
  fi <- rd pf i ;; fo <- rd nf out ;;
  if Qeq_bool mi mo || Qeq_bool fi fo then Ok st else
  mp <- rd pm (i - 1) ;; fp <- rd pf (i - 1) ;;
  nm <- wr nm (S out) mp ;; nf <- wr nf (S out) fp ;;
  Ok (S out, nm, nf).
(** the end: the last point is stored and the slices are taken; the second one reads the undefined new_fa *)
Definition filter_roc (pm pf : list Q) : res (list Q * list Q) :=
  st <- foldM (filter_turn pm pf) (0%nat, pm, pf) (seq 1 (len pm - 1)) ;;
  let '(out, nm, nf) := st in
  ml <- rd (rev pm) 0 ;; nm <- wr nm (S out) ml ;;
  fl <- rd (rev pf) 0 ;; nf <- wr nf (S out) fl ;;
  (Err NameError).

(** roc.py:190-209 compute_area_under_rocch: the term for i reads p_fa[i+1] *)
Definition area_under_rocch (vs : list (Q * Q)) : res Q :=
  _ <- assert (qsorted (map fst vs)) ;;
  _ <- assert (qsorted (rev (map snd vs))) ;;
  foldM (fun auc i =>
    m1 <- rd (map fst vs) i ;; m0 <- rd (map fst vs) (i - 1) ;;
    f1 <- rd (map snd vs) i ;; f2 <- rd (map snd vs) (S i) ;;
    Ok (auc + (1 # 2) * (m1 - m0) * (f1 + f2))%Q) 0%Q (seq 1 (len vs - 1)).
