(** C43: the lists of the template catalog stay consistent. *)
From Coq Require Import String.
From Verif Require Import Base StoreModel TcatModel TcatSpec TcatProofs.

(** ** additions *)
Theorem C43_add : forall l t, (forall r, In r l -> t_cat r <> ""%string) -> exists t', AddAll t l = (t', Ok tt) /\ same_flags t t' /\ tc_width t' = tc_width t /\
  forall c o g, lst t' c o g = if (Bool.eqb (tc_ortho t) o && Bool.eqb (tc_log t) g)%bool then (lst t c o g ++ map Some (of_category c l))%list else lst t c o g.
Proof. exact AddAll_ok. Qed.
Print Assumptions C43_add.
Theorem C43_add_empty_category : forall t r, t_cat r = ""%string -> Add t r = (t, Throw INTERNAL_ERROR).
Proof. exact Add_empty. Qed.
Print Assumptions C43_add_empty_category.
(** ** clearing a whole list: this list and the ones derived from it, in this category only *)
Theorem C43_clear_list : forall t c o g i, coherent t c -> exists t', ClearTemplates t c o g i true = (t', Ok tt) /\ coherent t' c /\ same_flags t t' /\
  (forall c' o' g', c' <> c -> lst t' c' o' g' = lst t c' o' g') /\
  (forall o' g', lst t' c o' g' = if derived o g o' g' then [] else lst t c o' g').
Proof.
  intros t c o g i H. destruct (clear_all t c o g i H) as [t' [E [[F [A _]] B]]]. exists t'. split; [exact E|]. split; [exact (clear_all_coherent t c o g i t' H E)|]. auto.
Qed.
Print Assumptions C43_clear_list.
(** ** clearing one template: it is forgotten in this list and in the ones derived from it; a list left without template is emptied with
    the lists derived from it *)
Theorem C43_clear_one : forall t c o g i, coherent t c -> (i < length (lst t c o g))%nat ->
  exists t', ClearTemplates t c o g (Z.of_nat i) false = (t', Ok tt) /\ coherent t' c /\ same_flags t t' /\
  (forall c' o' g', c' <> c -> lst t' c' o' g' = lst t c' o' g') /\
  (forall o' g', derived o g o' g' = false -> lst t' c o' g' = lst t c o' g') /\
  (forall o' g', derived o g o' g' = true ->
     ((exists o2 g2, derived o g o2 g2 = true /\ derived o2 g2 o' g' = true /\ erase i (lst t c o2 g2) = []) -> lst t' c o' g' = []) /\
     ((forall o2 g2, derived o g o2 g2 = true -> derived o2 g2 o' g' = true -> erase i (lst t c o2 g2) <> []) -> lst t' c o' g' = erase i (lst t c o' g'))).
Proof.
  intros t c o g i H Hi. destruct (clear_one t c o g i H Hi) as [t' [E [[F [A _]] [B C]]]]. exists t'. split; [exact E|].
  split; [exact (clear_one_coherent t c o g i t' H Hi E)|]. split; [exact F|]. split; [exact A|]. split; [exact B|exact C].
Qed.
Print Assumptions C43_clear_one.
(** the width of the LSF used by the orthogonalization is forgotten exactly when the last orthogonal template of the category goes *)
Theorem C43_clear_width : forall t c o g i all,
  let e x := match lst x c true false, lst x c true true with [], [] => true | _, _ => false end in
  let t' := fst (ClearTemplates t c o g i all) in
  tc_width t' = if (e t' && negb (e t))%bool then None else tc_width t.
Proof. intros t c o g i all. exact (proj2 (proj2 (proj2 (clear_step 4 t c o g i all)))). Qed.
Print Assumptions C43_clear_width.
(** ... of the category: the orthogonal templates of another category stay, without their width *)
Theorem C43_clear_width_refuted : forall t c c' i, coherent t c -> c' <> c -> lst t c true false <> [] ->
  exists t', ClearTemplates t c false false i true = (t', Ok tt) /\ tc_width t' = None /\ lst t' c' true false = lst t c' true false.
Proof. exact clear_width_other. Qed.
Print Assumptions C43_clear_width_refuted.
(** an index outside the list is refused, nothing is changed; an empty list needs nothing *)
Theorem C43_clear_outside : forall t c o g i, lst t c o g <> [] -> (i < 0 \/ Z.of_nat (length (lst t c o g)) <= i)%Z -> ClearTemplates t c o g i false = (t, Throw STD_out_of_range).
Proof. exact clear_outside. Qed.
Print Assumptions C43_clear_outside.
(** but if a derived list is shorter the refusal comes too late *)
Theorem C43_clear_outside_derived_refuted : forall t c g i, (length (lst t c true g) <= i < length (lst t c false g))%nat -> lst t c true g <> [] -> erase i (lst t c false g) <> [] ->
  exists t', ClearTemplates t c false g (Z.of_nat i) false = (t', Throw STD_out_of_range) /\ lst t' c false g = forget i (lst t c false g) /\ lst t' c true g = lst t c true g.
Proof. exact clear_partial. Qed.
Print Assumptions C43_clear_outside_derived_refuted.
(** and the orthogonal log-sampled templates are kept when there is no log-sampled one *)
Theorem C43_clear_orphan_refuted : forall t c i all, lst t c false true = [] -> lst t c true true <> [] -> lst t c false false <> [] -> (all = true \/ i = 0%Z /\ length (lst t c false false) = 1%nat) ->
  lst t c true false = [] ->
  exists t', ClearTemplates t c false false i all = (t', Ok tt) /\ lst t' c false false = [] /\ lst t' c true true = lst t c true true.
Proof. exact clear_orphan. Qed.
Print Assumptions C43_clear_orphan_refuted.
(** ** replacing: the template, and nothing else in its list; no template derived from the replaced one stays *)
Theorem C43_set : forall t r i, let c := t_cat r in let o := tc_ortho t in let g := tc_log t in
  c <> ""%string -> coherent t c -> (i < length (lst t c o g))%nat -> (length (lst t c o g) = 1%nat \/ exists j x, j <> i /\ nth_error (lst t c o g) j = Some (Some x)) ->
  exists t', SetTemplate t r (Z.of_nat i) = (t', Ok tt) /\ same_flags t t' /\
    (forall c' o' g', c' <> c \/ derived o g o' g' = false -> lst t' c' o' g' = lst t c' o' g') /\
    replaced (lst t c o g) i r (lst t' c o g) /\
    (forall o' g' x, derived o g o' g' = true -> (o', g') <> (o, g) -> nth_error (lst t' c o' g') i <> Some (Some x)).
Proof. exact Set_spec. Qed.
Print Assumptions C43_set.
(** ... the ones derived from the other templates stay (unless a log-sampled list is left without template, which only the replacement of
    an original one can do), and the lists stay coherent *)
Theorem C43_set_derived : forall t r i t', let c := t_cat r in let o := tc_ortho t in let g := tc_log t in
  c <> ""%string -> coherent t c -> (i < length (lst t c o g))%nat -> (length (lst t c o g) = 1%nat \/ exists j x, j <> i /\ nth_error (lst t c o g) j = Some (Some x)) ->
  SetTemplate t r (Z.of_nat i) = (t', Ok tt) -> coherent t' c /\
  forall o' g' j z, derived o g o' g' = true -> (o', g') <> (o, g) -> (o || g || negb (o' && g'))%bool = true ->
    (nth_error (lst t' c o' g') j = Some (Some z) <-> j <> i /\ nth_error (lst t c o' g') j = Some (Some z)).
Proof. intros t r i t' c o g Nc H Hi Hx E. split; [exact (Set_coherent t r i t' Nc H Hi Hx E)|exact (Set_derived t r i t' Nc H Hi Hx E)]. Qed.
Print Assumptions C43_set_derived.
(** the only template of a longer list is moved to the first place *)
Theorem C43_set_moved_refuted : forall t r i, let c := t_cat r in let o := tc_ortho t in let g := tc_log t in
  c <> ""%string -> coherent t c -> (i < length (lst t c o g))%nat -> (forall j x, nth_error (lst t c o g) j = Some (Some x) -> j = i) ->
  exists t', SetTemplate t r (Z.of_nat i) = (t', Ok tt) /\ lst t' c o g = [Some r].
Proof. exact Set_misplaced. Qed.
Print Assumptions C43_set_moved_refuted.
(** any index is accepted in an empty list, and ignored *)
Theorem C43_set_empty_refuted : forall t r i, t_cat r <> ""%string -> lst t (t_cat r) (tc_ortho t) (tc_log t) = [] ->
  exists t', SetTemplate t r i = (t', Ok tt) /\ lst t' (t_cat r) (tc_ortho t) (tc_log t) = [Some r].
Proof. exact Set_empty. Qed.
Print Assumptions C43_set_empty_refuted.
Theorem C43_set_outside : forall t r i, lst t (t_cat r) (tc_ortho t) (tc_log t) <> [] -> (i < 0 \/ Z.of_nat (length (lst t (t_cat r) (tc_ortho t) (tc_log t))) <= i)%Z ->
  SetTemplate t r i = (t, Throw STD_out_of_range).
Proof. exact Set_outside. Qed.
Print Assumptions C43_set_outside.
(** ** lookups *)
Theorem C43_get : forall t c i o g,
  GetTemplate t c (Z.of_nat i) o g = (match nth_error (lst t c o g) i with Some x => Ok x | None => Throw STD_out_of_range end) /\
  GetTemplateCount t c o g = length (lst t c o g) /\ GetNonNullTemplateCount t c o g = length (filter (fun x => match x with Some _ => true | None => false end) (lst t c o g)).
Proof. intros t c i o g. split; [apply Get_spec|]. split; [apply count_lst|apply nonnull_lst]. Qed.
Print Assumptions C43_get.
Theorem C43_list : forall t cats o g, GetTemplateList t cats o g = flat_map (fun c => lst t c o g) cats.
Proof. exact List_spec. Qed.
Print Assumptions C43_list.
(** by name: the first one of that name, an error when there is none; but a cleared template met before is dereferenced *)
Theorem C43_by_name : forall t cats name o g pre, (forall e, In e pre -> exists y, e = Some y /\ t_name y <> name) ->
  (forall x post, GetTemplateList t cats o g = (pre ++ Some x :: post)%list -> t_name x = name -> GetTemplateByName t cats name o g = Ok x) /\
  (GetTemplateList t cats o g = pre -> GetTemplateByName t cats name o g = Throw INTERNAL_ERROR).
Proof. intros t cats name o g pre H. destruct (ByName_spec t cats name o g pre H) as [A [_ B]]. auto. Qed.
Print Assumptions C43_by_name.
Theorem C43_by_name_refuted : forall t cats name o g pre post, (forall e, In e pre -> exists y, e = Some y /\ t_name y <> name) ->
  GetTemplateList t cats o g = (pre ++ None :: post)%list -> GetTemplateByName t cats name o g = UB.
Proof. intros t cats name o g pre post H. destruct (ByName_spec t cats name o g pre H) as [_ [A _]]. apply A. Qed.
Print Assumptions C43_by_name_refuted.

Definition C43_t (n : string) (d : Q) : tpl := mkTpl n "galaxy" d.
(** three original templates, all log-sampled and orthogonalized *)
Definition C43_ex : tcat := let l k := [Some (C43_t "a" (k + 0)); Some (C43_t "b" (k + 1)); Some (C43_t "c" (k + 2))]%Q in
  mkTC (fun o g => if (o && negb g)%bool then [("galaxy"%string, l 10%Q)] else if o then [("galaxy"%string, l 20%Q)] else if g then [("galaxy"%string, l 30%Q)] else [("galaxy"%string, l 0%Q)]) false true (Some 3%Q).
Example C43_nonvacuous : coherent C43_ex "galaxy" /\ (1 < length (lst C43_ex "galaxy" false true))%nat /\
  (let t' := fst (SetTemplate C43_ex (C43_t "b" 99) 1) in
   map (option_map t_data) (lst t' "galaxy" false true) = [Some (30 + 0); Some 99; Some (30 + 2)]%Q /\
   map (option_map t_data) (lst t' "galaxy" true true) = [Some (20 + 0); None; Some (20 + 2)]%Q /\
   lst t' "galaxy" true false = lst C43_ex "galaxy" true false /\ tc_width t' = Some 3%Q /\
   GetTemplateByName t' ["galaxy"%string] "c" true true = UB /\ tc_width (fst (ClearTemplateList t' "galaxy" false false)) = None).
Proof.
  split; [|split; [cbn; lia|cbn; repeat split]]. intros [|] [|] [|] [|] D; try discriminate; right; reflexivity.
Qed.
(** the cleared lists that [C43_set_moved_refuted] needs *)
Example C43_nonvacuous_moved : let t := fst (ClearTemplates (fst (ClearTemplates (set_flags C43_ex true true) "galaxy" true true 0 false)) "galaxy" true true 1 false) in
  coherent t "galaxy" /\ lst t "galaxy" true true = [None; None; Some (C43_t "c" (20 + 2))] /\
  lst (fst (SetTemplate t (C43_t "c" 5) 2)) "galaxy" true true = [Some (C43_t "c" 5)].
Proof. split; [intros [|] [|] [|] [|] D; try discriminate; right; reflexivity|]. split; reflexivity. Qed.
