(** Proofs about the SCPList model. *)
From Verif Require Import Base BaseFacts ListUtils ListUtilsProofs Str StrFacts Scp.
Open Scope Z_scope.

(** One element as returned by [scp[i]]. *)
Definition entry : Type := string * string * option Z * option (Z * Z).

(** The elements of a list, as a user reads them: scp[0], ..., scp[len-1]. *)
Definition elements (s : scp) : res (list entry) :=
  mapM (getitem_index s) (arange 0 (Z.of_nat (List.length (s_key s)))).

(** Columns of equal lengths: what the constructor checks. *)
Definition valid (s : scp) : Prop :=
  List.length (s_path s) = List.length (s_key s) /\
  (forall o, s_off s = Some o -> List.length o = List.length (s_key s)) /\
  (forall r, s_rng s = Some r -> List.length r = List.length (s_key s)).

(** *** Row representation *)

Definition frow : Type := string * string * Z * (Z * Z).
Definition r_key (r : frow) := fst (fst (fst r)).
Definition r_path (r : frow) := snd (fst (fst r)).
Definition r_off (r : frow) := snd (fst r).
Definition r_rng (r : frow) := snd r.

Definition opt_col {A} (h : bool) (f : frow -> A) (R : list frow) : option (list A) :=
  if h then Some (map f R) else None.

Definition build (R : list frow) (ho hr : bool) (c : option (list (string * Z))) : scp :=
  mk_scp (map r_key R) (map r_path R) (opt_col ho r_off R) (opt_col hr r_rng R) c.

Definition ent (ho hr : bool) (r : frow) : entry :=
  (r_key r, r_path r, if ho then Some (r_off r) else None, if hr then Some (r_rng r) else None).

Lemma cols_rows (k p : list string) (o : list Z) (g : list (Z * Z)) :
  List.length p = List.length k -> List.length o = List.length k -> List.length g = List.length k ->
  exists R, map r_key R = k /\ map r_path R = p /\ map r_off R = o /\ map r_rng R = g.
Proof.
  revert p o g. induction k as [|a k IH]; intros [|b p] [|c o] [|d g]; simpl; try discriminate; intros L1 L2 L3.
  - exists []. repeat split.
  - destruct (IH p o g) as [R [E1 [E2 [E3 E4]]]]; try lia.
    exists ((a, b, c, d) :: R). simpl. rewrite E1, E2, E3, E4. repeat split.
Qed.

Definition is_some {A} (o : option A) : bool := match o with Some _ => true | None => false end.

Lemma valid_build s : valid s ->
  exists R, s = build R (is_some (s_off s)) (is_some (s_rng s)) (s_cache s).
Proof.
  intros [L1 [L2 L3]].
  set (o := match s_off s with Some o => o | None => map (fun _ => 0) (s_key s) end).
  set (g := match s_rng s with Some o => o | None => map (fun _ => (0, 0)) (s_key s) end).
  destruct (cols_rows (s_key s) (s_path s) o g) as [R [E1 [E2 [E3 E4]]]].
  - exact L1.
  - unfold o. destruct (s_off s) eqn:E; [apply L2; reflexivity|apply map_length].
  - unfold g. destruct (s_rng s) eqn:E; [apply L3; reflexivity|apply map_length].
  - exists R. destruct s as [k p so sr c]. simpl in *. unfold build, opt_col.
    rewrite E1, E2, E3, E4. unfold o, g. destruct so, sr; reflexivity.
Qed.

Lemma build_valid R ho hr c : valid (build R ho hr c).
Proof.
  unfold valid, build, opt_col; simpl. rewrite !map_length. split; [reflexivity|].
  split; intros x E; destruct ho, hr; inversion E; subst; rewrite map_length; reflexivity.
Qed.

Lemma getitem_index_build R ho hr c i r :
  get_item R i = Ok r -> getitem_index (build R ho hr c) i = Ok (ent ho hr r).
Proof.
  intros E. unfold getitem_index, build; simpl. rewrite !get_item_map, E.
  unfold opt_item, opt_col, ent. destruct ho, hr; rewrite ?get_item_map, ?E; reflexivity.
Qed.

Lemma elements_build R ho hr c : elements (build R ho hr c) = Ok (map (ent ho hr) R).
Proof.
  unfold elements. simpl. rewrite map_length. rewrite arange_nat by lia.
  rewrite Z.sub_0_r, Nat2Z.id. simpl.
  apply mapM_ok_iff.
  pose proof (take_seq R) as T. apply mapM_ok_iff in T.
  assert (G : forall l R', Forall2 (fun i r => get_item R i = Ok r) l R' ->
     Forall2 (fun i y => getitem_index (build R ho hr c) i = Ok y) l (map (ent ho hr) R')).
  { intros l R' T'. induction T' as [|i r l R' E T' IH]; simpl; constructor; [|exact IH].
    apply getitem_index_build. exact E. }
  apply G. exact T.
Qed.

(** *** Operations on rows *)

Lemma opt_take_build {A} h (f : frow -> A) R loc :
  opt_take (opt_col h f R) loc =
  if h then (r <- take R loc ;; Ok (opt_col h f r)) else Ok None.
Proof.
  destruct h; simpl; [|reflexivity]. rewrite take_map. destruct (take R loc); reflexivity.
Qed.

Lemma opt_mask_build {A K} h (f : frow -> A) R (key : frow -> K) (p : K -> bool) :
  opt_mask (opt_col h f R) (map p (map key R)) =
  Ok (opt_col h f (filter (fun r => p (key r)) R)).
Proof.
  destruct h; simpl; [|reflexivity]. rewrite mask_rows. reflexivity.
Qed.

Lemma scp_new_build R ho hr :
  scp_new (map r_key R) (map r_path R) (opt_col ho r_off R) (rng_of (opt_col hr r_rng R))
  = Ok (build R ho (hr && negb (match R with [] => true | _ => false end)) None).
Proof.
  unfold scp_new, len_eqb. rewrite !map_length, Nat.eqb_refl. simpl.
  unfold opt_col. destruct R as [|r R]; destruct ho, hr; simpl; rewrite ?map_length, ?Nat.eqb_refl; reflexivity.
Qed.

Definition nonnil {A} (R : list A) : bool := negb (match R with [] => true | _ => false end).

(** All ops of the form "index all columns, construct". *)
Lemma take_cols_build {B} R ho hr loc (k : list string -> list string -> option (list Z) -> option (list (Z*Z)) -> res B) :
  (key <- take (map r_key R) loc ;;
   path <- take (map r_path R) loc ;;
   off <- opt_take (opt_col ho r_off R) loc ;;
   rng <- opt_take (opt_col hr r_rng R) loc ;;
   k key path off rng)
  = (r <- take R loc ;; k (map r_key r) (map r_path r) (opt_col ho r_off r) (opt_col hr r_rng r)).
Proof.
  rewrite !take_map, !opt_take_build.
  destruct (take R loc) as [r|e]; simpl; [|reflexivity]. destruct ho, hr; reflexivity.
Qed.

Lemma scp_sort_build R ho hr c idx :
  scp_sort idx (build R ho hr c) =
  (r <- take R (map Z.of_nat idx) ;; Ok (build r ho hr None)).
Proof.
  unfold scp_sort, sort_index. simpl.
  rewrite !take_map.
  destruct (take R (map Z.of_nat idx)) as [r|e] eqn:E; simpl; [|reflexivity].
  rewrite ?take_map, ?E. simpl. rewrite !opt_take_build, E. destruct ho, hr; reflexivity.
Qed.

Lemma scp_shuffle_build R ho hr c idx :
  scp_shuffle idx (build R ho hr c) =
  (r <- take R (map Z.of_nat idx) ;; Ok (build r ho hr None, idx)).
Proof. unfold scp_shuffle. simpl. apply (take_cols_build R ho hr). Qed.

Lemma scp_filter_index_build R ho hr c ix keep :
  scp_filter_index (build R ho hr c) ix keep =
  (r <- take R (if keep then ix else setdiff (arange 0 (Z.of_nat (List.length R))) ix) ;;
   Ok (build r ho (hr && nonnil r) None)).
Proof.
  unfold scp_filter_index. simpl. rewrite map_length.
  rewrite (take_cols_build R ho hr).
  destruct (take R _); simpl; [|reflexivity]. apply scp_new_build.
Qed.

Lemma ismember_mask {A} `{Ord A} (a b : list A) :
  fst (ismember a b) = map (fun x => inb x b) a.
Proof.
  pose proof (ismember_spec a b) as [L1 [_ S]].
  apply nth_error_ext. intros i. rewrite nth_error_map.
  destruct (nth_error a i) as [x|] eqn:E; cbn [option_map].
  - destruct (S i x E) as [T [F _]].
    destruct (inb x b) eqn:I.
    + apply T. apply inb_iff. exact I.
    + apply F. apply inb_false. exact I.
  - apply nth_error_None. rewrite L1. apply nth_error_None. exact E.
Qed.

Lemma mask_cols_build {K} R ho hr c (key : frow -> K) (p : K -> bool) :
  mask_cols (map p (map key R)) (build R ho hr c) =
  let r := filter (fun r => p (key r)) R in Ok (build r ho (hr && nonnil r) None).
Proof.
  unfold mask_cols. simpl.
  rewrite (mask_rows R key r_key p), (mask_rows R key r_path p). simpl.
  rewrite !opt_mask_build. simpl. apply scp_new_build.
Qed.

Lemma forallb_id_map {A} (p : A -> bool) l : forallb (fun b => b) (map p l) = forallb p l.
Proof. induction l; simpl; congruence. Qed.

Lemma scp_filter_build R ho hr c fk keep :
  scp_filter (build R ho hr c) fk keep =
  if keep && negb (forallb (fun k => inb k (map r_key R)) fk) then Err AssertionError
  else let r := filter (fun r => Bool.eqb keep (inb (r_key r) fk)) R in
       Ok (build r ho (hr && nonnil r) None).
Proof.
  unfold scp_filter. cbn [s_key s_path build]. rewrite !ismember_mask, forallb_id_map.
  destruct keep; cbn [andb].
  - destruct (forallb _ fk) eqn:F; cbn [assert bind negb]; [|reflexivity].
    rewrite mask_cols_build. cbn zeta.
    match goal with |- Ok (build ?a _ _ _) = Ok (build ?b _ _ _) => assert (a = b) as -> end; [|reflexivity].
    apply filter_ext. intros r. match goal with |- context [inb ?a ?b] => destruct (inb a b) end; reflexivity.
  - match goal with |- context [assert ?b] => assert (b = true) as -> end.
    { apply forallb_forall. intros x Hx. apply setdiff_in in Hx. apply inb_iff. apply Hx. }
    cbn [assert bind]. rewrite mask_cols_build. cbn zeta.
    match goal with |- Ok (build ?a _ _ _) = Ok (build ?b _ _ _) => assert (a = b) as -> end; [|reflexivity].
    apply filter_ext_in. intros r Hr.
    match goal with |- _ = Bool.eqb false ?b => destruct b eqn:I end; simpl.
    + apply inb_false. rewrite setdiff_in. apply inb_iff in I. tauto.
    + apply inb_iff. rewrite setdiff_in. apply inb_false in I.
      split; [apply in_map; exact Hr|exact I].
Qed.

Lemma scp_filter_paths_build R ho hr c fk keep :
  scp_filter_paths (build R ho hr c) fk keep =
  if keep && negb (forallb (fun k => inb k (map r_path R)) fk) then Err AssertionError
  else let r := filter (fun r => Bool.eqb keep (inb (r_path r) fk)) R in
       Ok (build r ho (hr && nonnil r) None).
Proof.
  unfold scp_filter_paths. cbn [s_key s_path build]. rewrite !ismember_mask, forallb_id_map.
  destruct keep; cbn [andb].
  - destruct (forallb _ fk) eqn:F; cbn [assert bind negb]; [|reflexivity].
    rewrite mask_cols_build. cbn zeta.
    match goal with |- Ok (build ?a _ _ _) = Ok (build ?b _ _ _) => assert (a = b) as -> end; [|reflexivity].
    apply filter_ext. intros r. match goal with |- context [inb ?a ?b] => destruct (inb a b) end; reflexivity.
  - match goal with |- context [assert ?b] => assert (b = true) as -> end.
    { apply forallb_forall. intros x Hx. apply setdiff_in in Hx. apply inb_iff. apply Hx. }
    cbn [assert bind]. rewrite mask_cols_build. cbn zeta.
    match goal with |- Ok (build ?a _ _ _) = Ok (build ?b _ _ _) => assert (a = b) as -> end; [|reflexivity].
    apply filter_ext_in. intros r Hr.
    match goal with |- _ = Bool.eqb false ?b => destruct b eqn:I end; simpl.
    + apply inb_false. rewrite setdiff_in. apply inb_iff in I. tauto.
    + apply inb_iff. rewrite setdiff_in. apply inb_false in I.
      split; [apply in_map; exact Hr|exact I].
Qed.

(** split: the index array depends on the keys only *)
Definition split_loc (key : list string) (i P : Z) (g : bool) : res (list Z) :=
  kl <- (if g then split_list_group_by_key key key i P else split_list key i P) ;; Ok (snd kl).

Lemma split_loc_take (key : list string) i P (g : bool) kl :
  (if g then split_list_group_by_key key key i P else split_list key i P) = Ok kl ->
  take key (snd kl) = Ok (fst kl).
Proof.
  destruct g.
  - unfold split_list_group_by_key, split_list_group_by_key_with.
    destruct key as [|k key]; [discriminate|].
    destruct (P =? 0); [discriminate|].
    destruct (fill_groups _ _ _ _) as [loc|e]; simpl; [|discriminate].
    destruct (take _ _) as [x|e] eqn:E; simpl; [|discriminate].
    intros Q; inversion Q; subst. exact E.
  - unfold split_list, split_list_with. destruct (P =? 0); [discriminate|].
    cbn zeta. destruct (take key _) as [x|e] eqn:E; simpl; [|discriminate].
    intros Q; inversion Q; subst. exact E.
Qed.

Lemma scp_split_build R ho hr c i P g :
  scp_split (build R ho hr c) i P g =
  (loc <- split_loc (map r_key R) i P g ;;
   r <- take R loc ;; Ok (build r ho (hr && nonnil r) None)).
Proof.
  unfold scp_split, split_loc. simpl.
  destruct (if g then _ else _) as [[key loc]|e] eqn:E; simpl; [|reflexivity].
  apply split_loc_take in E. simpl in E.
  transitivity (key <- take (map r_key R) loc ;;
     path <- take (map r_path R) loc ;;
     off <- opt_take (opt_col ho r_off R) loc ;;
     rng <- opt_take (opt_col hr r_rng R) loc ;; scp_new key path off (rng_of rng)).
  - rewrite E. reflexivity.
  - rewrite take_cols_build. destruct (take R loc); simpl; [|reflexivity]. apply scp_new_build.
Qed.

(** merge *)
Lemma concat_opt_all {A} (l : list (list A)) : concat_opt (map Some l) = Ok (concat l).
Proof. induction l as [|x l IH]; simpl; [reflexivity|]. rewrite IH. reflexivity. Qed.

Lemma concat_opt_ok {A} (l : list (option (list A))) r :
  concat_opt l = Ok r -> exists ls, l = map Some ls /\ r = concat ls.
Proof.
  revert r. induction l as [|[x|] l IH]; simpl; intros r E.
  - inversion E; subst. exists []. split; reflexivity.
  - destruct (concat_opt l) as [y|]; simpl in E; [|discriminate]. inversion E; subst.
    destruct (IH y eq_refl) as [ls [-> ->]]. exists (x :: ls). split; reflexivity.
  - discriminate.
Qed.

(** [valid] is established by the constructor. *)
Lemma scp_new_valid k p o r s : scp_new k p o r = Ok s -> valid s /\ s_cache s = None.
Proof.
  unfold scp_new, len_eqb, assert. intros E.
  destruct (Nat.eqb_spec (List.length k) (List.length p)) as [L1|]; [|discriminate].
  simpl in E.
  assert (Ho : forall x, o = Some x -> List.length k = List.length x).
  { intros x ->. simpl in E. destruct (Nat.eqb_spec (List.length k) (List.length x)); [assumption|discriminate]. }
  destruct (match o with None => Ok tt | Some o => if (List.length k =? List.length o)%nat then Ok tt else Err AssertionError end) ; [|discriminate].
  simpl in E.
  destruct r as [|[|x l]|[|x l]]; try (destruct o as [o|]; simpl in E; try destruct (_ =? _)%nat; discriminate).
  - inversion E; subst. split; [|reflexivity]. split; [auto|]. split; simpl; intros x Hx; [symmetry; auto|discriminate].
  - inversion E; subst. split; [|reflexivity]. split; [auto|]. split; simpl; intros x Hx; [symmetry; auto|discriminate].
  - inversion E; subst. split; [|reflexivity]. split; [auto|]. split; simpl; intros x Hx; [symmetry; auto|discriminate].
  - destruct (Nat.eqb_spec (List.length k) (List.length (x :: l))) as [L|]; [|discriminate].
    simpl in E. inversion E; subst. split; [|reflexivity].
    split; [auto|]. split; intros y Hy; [symmetry; apply Ho; exact Hy|inversion Hy; subst; symmetry; exact L].
Qed.
