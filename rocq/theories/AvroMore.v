(** Reading and writing schemas of the Avro grammar. *)
From Coq Require Import String Ascii List NArith ZArith QArith Bool Lia.
From Verif Require Import PyVal PyValFacts RType Registry FromDict FromDictFacts RegexFacts RegistryFacts
  SpecTypes Avro SpecAvro AvroFacts.
Import ListNotations.
Open Scope nat_scope.
Open Scope string_scope.
Open Scope list_scope.

Lemma dget_rest m ns def h rest k : k <> "doc" -> k <> "name" -> k <> "default" -> k <> "aliases" ->
  dget k (label_json m ns def h ++ rest) = dget k rest.
Proof.
  intros A B C D. unfold label_json. rewrite !dget_app.
  apply eqb_neq_s in A, B, C, D.
  destruct (l_doc h), (l_name h), (l_default h), m, def; cbn [dget andb]; rewrite ?A, ?B, ?C, ?D; reflexivity.
Qed.

Lemma head_labels ns def h rest : labels_ok h -> ns <> "" ->
  (forall k, In k ["doc"; "namespace"; "name"; "default"] -> dget k rest = None) ->
  avro_parse_head (label_json false ns def h ++ rest) (PStr ns)
  = Ok (mkHead (PStr ns) (alias_of ns h) (all_attrs h)).
Proof.
  intros [_ I] N K.
  assert (K1 := K "doc" ltac:(cbn; auto)). assert (K2 := K "namespace" ltac:(cbn; auto)).
  assert (K3 := K "name" ltac:(cbn; auto)). assert (K4 := K "default" ltac:(cbn; auto)). clear K.
  assert (T : truthy (PStr ns) = true) by (cbn; destruct (String.eqb_spec ns ""); [congruence|reflexivity]).
  unfold avro_parse_head.
  assert (D1 : dget "namespace" (label_json false ns def h ++ rest) = None).
  { rewrite dget_rest by discriminate. exact K2. }
  rewrite D1. clear D1.
  assert (D1 : dget "doc" (label_json false ns def h ++ rest) = option_map PStr (l_doc h)).
  { unfold label_json. rewrite !dget_app. destruct (l_doc h), (l_name h), (l_default h); auto. }
  assert (D2 : dget "name" (label_json false ns def h ++ rest) = option_map PStr (l_name h)).
  { unfold label_json. rewrite !dget_app. destruct (l_doc h), (l_name h), (l_default h); auto. }
  assert (D3 : dget "default" (label_json false ns def h ++ rest) = l_default h).
  { unfold label_json. rewrite !dget_app. destruct (l_doc h), (l_name h), (l_default h); auto. }
  rewrite D1, D2, D3. unfold alias_of, all_attrs, attrs_of, full.
  destruct (l_name h) as [s|] eqn:EN; cbn [option_map].
  - rewrite (identifier_no_dot s (I s eq_refl)). rewrite T. cbn [ns_text rbind].
    destruct (l_doc h), (l_default h); reflexivity.
  - destruct (l_doc h), (l_default h); reflexivity.
Qed.

Lemma common_of ns h : avro_common PNone (alias_of ns h) [] (all_attrs h) = c_of ns h.
Proof.
  unfold avro_common, c_of, doc_of, all_attrs, attrs_of.
  destruct (l_doc h), (l_name h), (l_default h); reflexivity.
Qed.
Lemma common_lo h lo x : avro_common (PStr lo) PNone x (all_attrs h) = c_lo h lo x.
Proof.
  unfold avro_common, c_lo, doc_of, all_attrs, attrs_of.
  destruct (l_doc h), (l_name h), (l_default h); reflexivity.
Qed.

Lemma yields_own ns h t : namespace ns -> labels_ok h -> get_c t = c_of ns h ->
  yields (avro_register t) (map (full ns) (match l_name h with Some s => [s] | None => [] end)) t.
Proof.
  intros N [_ I] E. destruct (l_name h) as [s|] eqn:L; cbn [map].
  - apply yields_register; [rewrite E; cbn; unfold alias_of; now rewrite L|]. apply namespace_full; auto.
  - apply yields_register_none. rewrite E. cbn. unfold alias_of. now rewrite L.
Qed.

Lemma map_flat {A B C} (f : B -> C) (g : A -> list B) l : map f (flat_map g l) = flat_map (fun x => map f (g x)) l.
Proof. induction l as [|x l IH]; cbn; [auto|]. now rewrite map_app, IH. Qed.
Lemma mmap_map {A B C} (f : B -> M C) (g : A -> B) l R : mmap f (map g l) R = mmap (fun x => f (g x)) l R.
Proof.
  revert R. induction l as [|x l IH]; intros R; cbn [map mmap]; auto.
  unfold mbind. destruct (f (g x) R) as [R1 [y|e]]; auto. rewrite IH. reflexivity.
Qed.

Lemma compact_cases a d : compact a d = PDict d \/
  exists s, (a = APrim unlabelled s \/ a = ARef unlabelled s) /\ compact a d = PStr s.
Proof.
  destruct a as [h s| | |h s| | | | | |]; auto; destruct h as [[x|] [y|] [z|]]; auto; right; eauto.
Qed.

(** A label-free schema is read the same from its short form. *)
Lemma parse_compact m ns a j R : avro_parse (compact a (json_entries m ns a)) j R = avro_parse (PDict (json_entries m ns a)) j R.
Proof.
  destruct (compact_cases a (json_entries m ns a)) as [->|(s & [->| ->] & ->)]; auto.
Qed.

Lemma prim_cases s : In s avro_prims -> s = "null" \/ s = "boolean" \/ s = "int" \/ s = "long" \/ s = "float"
  \/ s = "double" \/ s = "bytes" \/ s = "string".
Proof. cbn. intuition. Qed.

Lemma ref_not_builtin s : substr_in "." s = true ->
  forall x, In x ["null"; "boolean"; "int"; "long"; "float"; "double"; "bytes"; "fixed"; "string"; "record"; "enum"; "array"; "map"; "union"] ->
  String.eqb s x = false.
Proof.
  intros H x I. destruct (String.eqb_spec s x) as [->|]; auto. exfalso. revert H.
  cbn in I. repeat destruct I as [<-|I]; try (cbn; discriminate). destruct I.
Qed.

Lemma read ns a : namespace ns -> avro_ok a ->
  yields (avro_parse (PDict (json_entries false ns a)) (PStr ns)) (full_names ns a) (tree_of ns a).
Proof.
  intros N. pose proof (namespace_nonempty _ N) as NE. unfold full_names.
  change (fun n : string => (ns ++ "." ++ n)%string) with (full ns).
  induction a as [h s|h s l|h p s|h s|h l|h a IH|h a IH|h l IH|h l IH|h a IH] using avro_ind';
    intros OK; inversion OK as [? ? L W|? ? ? L W|? ? ? L|? ? L W|? ? L|? ? L W|? ? L W|? ? L W|? ? L W|? ? L W]; subst;
    (eapply yields_ext; [intros R; rewrite avro_parse_unfold; cbn [json_entries];
       rewrite head_labels by (auto; intros k K; cbn in K; repeat destruct K as [<-|K]; try reflexivity; destruct K);
       unfold mbind at 1, lift at 1; unfold kwarg at 1; rewrite (dget_rest _ _ _ _ _ "logicalType") by discriminate;
       cbn [avro_labels]; reflexivity|]);
    cbn [dget String.eqb Ascii.eqb Bool.eqb truthy negb].
  - unfold avro_body. rewrite dget_rest by discriminate. cbn [a_ns a_alias a_attrs]. rewrite common_of.
    cbn [defined_names defines app avro_labels tree_of]. unfold prim_type.
    apply prim_cases in W. repeat destruct W as [->|W]; [..|subst]; cbn [dget String.eqb Ascii.eqb Bool.eqb];
      apply yields_own; auto.
  - cbn in W. unfold avro_parse_logical. cbn [a_attrs]. cbn [defined_names defines app map tree_of].
    repeat destruct W as [W|W]; [..|destruct W]; injection W as <- <-; unfold kwarg;
      rewrite !dget_rest by discriminate; cbn [dget String.eqb Ascii.eqb Bool.eqb negb];
      rewrite common_lo; apply yields_ret.
  - unfold avro_parse_logical. cbn [a_attrs String.eqb Ascii.eqb Bool.eqb]. cbn [defined_names defines app map tree_of].
    unfold kwarg. rewrite !dget_rest by discriminate. cbn [dget String.eqb Ascii.eqb Bool.eqb py_eq negb].
    rewrite common_lo. apply yields_ret.
  - unfold avro_body. rewrite dget_rest by discriminate. cbn [a_ns a_alias a_attrs].
    cbn [defined_names defines app map tree_of dget String.eqb Ascii.eqb Bool.eqb].
    rewrite !(ref_not_builtin s W) by (cbn; tauto). rewrite W.
    replace (kwarg "doc" PNone (all_attrs h)) with (doc_of h)
      by (unfold doc_of, all_attrs, attrs_of; destruct (l_doc h), (l_name h), (l_default h); reflexivity).
    replace (ddel "doc" (all_attrs h)) with (attrs_of h)
      by (unfold doc_of, all_attrs, attrs_of; destruct (l_doc h), (l_name h), (l_default h); reflexivity).
    apply yields_ret.
  - unfold avro_body. rewrite !dget_rest by discriminate. cbn [a_ns a_alias a_attrs]. rewrite common_of.
    cbn [dget String.eqb Ascii.eqb Bool.eqb]. apply yields_own; auto.
  - unfold avro_body. rewrite !dget_rest by discriminate. cbn [a_ns a_alias a_attrs]. rewrite common_of.
    cbn [dget String.eqb Ascii.eqb Bool.eqb]. cbn [defined_names defines avro_labels tree_of]. rewrite map_app.
    eapply yields_bind; [|apply yields_own; auto].
    eapply yields_ext; [intros R; apply parse_compact|]. auto.
  - unfold avro_body. rewrite !dget_rest by discriminate. cbn [a_ns a_alias a_attrs]. rewrite common_of.
    cbn [dget String.eqb Ascii.eqb Bool.eqb]. cbn [defined_names defines avro_labels tree_of]. rewrite map_app.
    eapply yields_bind; [|apply yields_own; auto].
    eapply yields_ext; [intros R; apply parse_compact|]. auto.
  - unfold avro_body. rewrite !dget_rest by discriminate. cbn [a_ns a_alias a_attrs]. rewrite common_of.
    cbn [dget String.eqb Ascii.eqb Bool.eqb]. cbn [defined_names defines avro_labels tree_of]. rewrite map_app.
    eapply yields_ext; [intros R; unfold mbind at 1, lift at 1; cbn [py_iter]; reflexivity|].
    eapply yields_bind; [|apply yields_own; auto]. rewrite map_flat.
    eapply yields_ext; [intros R; apply mmap_map|].
    apply yields_mmap. rewrite Forall_forall in *. intros x I. apply IH; auto.
  - unfold avro_body. rewrite !dget_rest by discriminate. cbn [a_ns a_alias a_attrs]. rewrite common_of.
    cbn [dget String.eqb Ascii.eqb Bool.eqb]. cbn [defined_names defines avro_labels tree_of]. rewrite map_app.
    eapply yields_bind; [|apply yields_own; auto]. rewrite map_flat.
    eapply yields_ext; [intros R; apply mmap_map|].
    apply yields_mmap. rewrite Forall_forall in *. intros x I.
    eapply yields_ext; [intros R; apply parse_compact|]. apply IH; auto.
  - unfold avro_body. rewrite !dget_rest by discriminate. cbn [a_ns a_alias a_attrs].
    cbn [dget String.eqb Ascii.eqb Bool.eqb]. cbn [defined_names defines avro_labels tree_of]. rewrite map_app.
    cbn [map]. apply (yields_bind _ _ _ _ _ _ (IH W)). unfold nested_c. apply yields_ret.
Qed.

(** ** Writing *)
Lemma label_keys m ns def h k : In k (dkeys (label_json m ns def h)) -> In k ["doc"; "name"; "default"; "aliases"].
Proof.
  unfold label_json. destruct (l_doc h), (l_name h), (l_default h), m, def; cbn; tauto.
Qed.
Lemma dset_labels m ns def h rest k v : k <> "doc" -> k <> "name" -> k <> "default" -> k <> "aliases" ->
  dset k v (label_json m ns def h ++ rest) = label_json m ns def h ++ dset k v rest.
Proof.
  intros A B C D. apply dset_app_r. intros I. apply label_keys in I. cbn in I. intuition congruence.
Qed.
Lemma dset_labels0 m ns def h k v : k <> "doc" -> k <> "name" -> k <> "default" -> k <> "aliases" ->
  dset k v (label_json m ns def h) = label_json m ns def h ++ [(k, v)].
Proof.
  intros A B C D. rewrite <- (app_nil_r (label_json m ns def h)) at 1. now rewrite dset_labels.
Qed.

Lemma full_dotted ns s : substr_in "." (full ns s) = true.
Proof. apply substr_char. exists ns, s. reflexivity. Qed.
Lemma truthy_s s : s <> "" -> truthy (PStr s) = true.
Proof. intros H. cbn. destruct (String.eqb_spec s ""); [congruence|reflexivity]. Qed.
Lemma full_truthy ns s : truthy (PStr (full ns s)) = true.
Proof. apply truthy_s. unfold full. destruct ns; discriminate. Qed.

Lemma head_attrs h x alias : labels_ok h -> (forall k, In k ["name"; "default"] -> dget k x = None) ->
  let c lo := mkC lo alias (doc_of h) (x ++ attrs_of h) in
  forall lo, avro_head (c lo) =
    (if truthy alias then
      (dotted <- py_str_in "." alias ;;
       Ok (if dotted : bool then dset "aliases" (PList [alias]) (all_attrs h) else (all_attrs h)))%res
     else Ok (all_attrs h)).
Proof.
  intros [D I] K c lo. assert (K1 := K "name" ltac:(cbn; auto)). assert (K2 := K "default" ltac:(cbn; auto)).
  unfold avro_head, c. cbn [c_doc c_extra c_alias]. unfold kwarg. rewrite !dget_app, K1, K2.
  replace (dget "name" (attrs_of h)) with (option_map PStr (l_name h))
    by (unfold attrs_of; destruct (l_name h), (l_default h); reflexivity).
  replace (dget "default" (attrs_of h)) with (l_default h)
    by (unfold attrs_of; destruct (l_name h), (l_default h); reflexivity).
  unfold doc_of, all_attrs, attrs_of.
  assert (T1 : forall s, l_doc h = Some s -> truthy (PStr s) = true) by (intros s E; apply truthy_s; congruence).
  assert (T2 : forall s, l_name h = Some s -> truthy (PStr s) = true) by (intros s E; apply truthy_s, identifier_nonempty; auto).
  destruct (l_doc h) as [d|], (l_name h) as [n|], (l_default h) as [v|]; cbn [option_map];
    rewrite ?(T1 _ eq_refl), ?(T2 _ eq_refl); reflexivity.
Qed.

Lemma head_c_of ns h : labels_ok h -> avro_head (c_of ns h) = Ok (label_json true ns true h).
Proof.
  intros L. unfold c_of. rewrite (head_attrs h [] (alias_of ns h) L ltac:(intros; reflexivity)).
  unfold alias_of, label_json, all_attrs, attrs_of. destruct (l_name h) as [s|].
  - rewrite full_truthy. cbn [py_str_in rbind]. rewrite full_dotted. unfold full.
    destruct (l_doc h), (l_default h); reflexivity.
  - cbn [truthy]. destruct (l_doc h), (l_default h); reflexivity.
Qed.
Lemma label_unmarked m ns h : label_json m ns false h = all_attrs h.
Proof.
  unfold label_json, all_attrs, attrs_of. rewrite andb_false_r. destruct (l_doc h), (l_name h), (l_default h); reflexivity.
Qed.
Lemma head_c_lo ns h lo x : labels_ok h -> (forall k, In k ["name"; "default"] -> dget k x = None) ->
  avro_head (c_lo h lo x) = Ok (label_json true ns false h).
Proof.
  intros L K. unfold c_lo. rewrite (head_attrs h x PNone L K). cbn [truthy]. now rewrite label_unmarked.
Qed.
Lemma head_ref ns h s : labels_ok h -> substr_in "." s = true ->
  avro_head (mkC PNone (PStr s) (doc_of h) (attrs_of h)) = Ok (label_json true ns false h ++ [("aliases", PList [PStr s])]).
Proof.
  intros L D. pose proof (head_attrs h [] (PStr s) L ltac:(intros; reflexivity) PNone) as H. cbn [app] in H. rewrite H.
  assert (T : truthy (PStr s) = true) by (apply truthy_s; intros ->; discriminate). rewrite T. cbn [py_str_in rbind].
  rewrite D, label_unmarked. f_equal. apply dset_new. unfold all_attrs, attrs_of.
  destruct (l_doc h), (l_name h), (l_default h); cbn; intuition congruence.
Qed.

Lemma short_two d k v : avro_short (d ++ [("type", v); k]) = PDict (d ++ [("type", v); k]).
Proof. unfold avro_short. rewrite app_length. cbn. rewrite Nat.add_comm. reflexivity. Qed.
Lemma short_long d a b l : avro_short (d ++ a :: b :: l) = PDict (d ++ a :: b :: l).
Proof. unfold avro_short. rewrite app_length. cbn. rewrite <- plus_n_Sm, <- plus_n_Sm. reflexivity. Qed.
Lemma short_list d l : dget "type" d = None -> avro_short (d ++ [("type", PList l)]) = PDict (d ++ [("type", PList l)]).
Proof.
  intros H. unfold avro_short. destruct (Nat.eqb _ 1); auto. rewrite dget_app, H. reflexivity.
Qed.
Lemma label_no_type m ns def h : dget "type" (label_json m ns def h) = None.
Proof. rewrite <- (app_nil_r (label_json m ns def h)). rewrite dget_rest by discriminate. reflexivity. Qed.
Lemma short_prim ns def h s : avro_short (label_json true ns def h ++ [("type", PStr s)]) =
  match h with mkLabels None None None => PStr s | _ => PDict (label_json true ns def h ++ [("type", PStr s)]) end.
Proof. destruct h as [[x|] [y|] [z|]], def; reflexivity. Qed.

Lemma compact_prim h s d : compact (APrim h s) d = match h with mkLabels None None None => PStr s | _ => PDict d end.
Proof. destruct h as [[x|] [y|] [z|]]; reflexivity. Qed.
Lemma compact_ref h s d : compact (ARef h s) d = match h with mkLabels None None None => PStr s | _ => PDict d end.
Proof. destruct h as [[x|] [y|] [z|]]; reflexivity. Qed.

Lemma write prox R ns a : avro_ok a -> inlined a ->
  avro_tree prox R (tree_of ns a) = Ok (compact a (json_entries true ns a)).
Proof.
  induction a as [h s|h s l|h p s|h s|h l|h a IH|h a IH|h l IH|h l IH|h a IH] using avro_ind';
    intros OK IN; inversion OK as [? ? L W|? ? ? L W|? ? ? L|? ? L W|? ? L|? ? L W|? ? L W|? ? L W|? ? L W|? ? L W]; subst;
    inversion IN as [| | | | |? ? J|? ? J|? ? J|? ? J]; subst; cbn [tree_of json_entries defines avro_labels].
  - rewrite compact_prim. apply prim_cases in W. unfold prim_type.
    repeat destruct W as [->|W]; [..|subst]; cbn [String.eqb Ascii.eqb Bool.eqb avro_tree get_c];
      rewrite head_c_of by auto; cbn [rbind c_of c_logical as_int andb orb negb];
      repeat match goal with |- context [Z.leb ?x ?y] => let r := eval vm_compute in (Z.leb x y) in change (Z.leb x y) with r end;
      cbn [andb orb negb]; cbv beta iota zeta; rewrite dset_labels0 by discriminate; f_equal; apply short_prim.
  - cbn in W. unfold logical_type.
    repeat destruct W as [W|W]; [..|destruct W]; injection W as <- <-; cbn [String.eqb Ascii.eqb Bool.eqb avro_tree get_c];
      rewrite (head_c_lo ns) by (auto; intros k K; cbn in K; intuition subst; reflexivity);
      cbn [rbind c_lo c_logical avro_logical];
      repeat match goal with |- context [Z.leb ?x ?y] => let r := eval vm_compute in (Z.leb x y) in change (Z.leb x y) with r end;
      cbn; rewrite dset_labels0 by discriminate; rewrite dset_labels by discriminate; cbn [dset String.eqb Ascii.eqb Bool.eqb];
      rewrite short_two; reflexivity.
  - cbn [avro_tree get_c].
    rewrite (head_c_lo ns) by (auto; intros k K; cbn in K; intuition subst; reflexivity).
    cbn [rbind c_lo c_logical avro_logical get_c as_int].
    change (Z.leb max_len max_len) with true. cbn.
    rewrite dset_labels0 by discriminate. do 3 (rewrite dset_labels by discriminate; cbn [dset String.eqb Ascii.eqb Bool.eqb]).
    rewrite short_long. reflexivity.
  - rewrite compact_ref. cbn [avro_tree get_c]. rewrite (head_ref ns) by auto. cbn [rbind c_logical c_alias]. rewrite W. cbn [negb].
    rewrite dset_labels by discriminate. cbn [dset String.eqb Ascii.eqb Bool.eqb]. rewrite ddel_app. cbn [ddel filter fst String.eqb Ascii.eqb Bool.eqb negb].
    rewrite ddel_notin. 2:{ rewrite label_unmarked. unfold all_attrs, attrs_of. destruct (l_doc h), (l_name h), (l_default h); cbn; intuition congruence. }
    f_equal. apply short_prim.
  - cbn [avro_tree get_c compact]. rewrite head_c_of by auto. cbn [rbind c_of c_logical]. cbv zeta.
    rewrite dset_labels0 by discriminate. rewrite dset_labels by discriminate. cbn [dset String.eqb Ascii.eqb Bool.eqb].
    rewrite short_two. reflexivity.
  - cbn [avro_tree get_c compact]. rewrite head_c_of by auto. cbn [rbind c_of c_logical]. rewrite IH by auto. cbn [rbind].
    rewrite dset_labels0 by discriminate. rewrite dset_labels by discriminate. cbn [dset String.eqb Ascii.eqb Bool.eqb].
    rewrite short_two. reflexivity.
  - cbn [avro_tree get_c compact]. rewrite head_c_of by auto. cbn [rbind c_of c_logical]. rewrite IH by auto. cbn [rbind].
    rewrite dset_labels0 by discriminate. rewrite dset_labels by discriminate. cbn [dset String.eqb Ascii.eqb Bool.eqb].
    rewrite short_two. reflexivity.
  - cbn [avro_tree get_c compact]. rewrite head_c_of by auto. cbn [rbind c_of c_logical].
    match goal with |- context [rbind (?go (map (tree_of ns) l)) _] => set (G := go) end.
    assert (E : G (map (tree_of ns) l) = Ok (map (fun x => PDict (json_entries true ns x)) l)).
    { clear OK IN. induction l as [|x l IHl]; [reflexivity|]. cbn [map]. inversion IH; inversion W; inversion J; subst.
      unfold G. cbn [rbind]. rewrite H1 by auto. cbn [rbind].
      destruct (compact_cases x (json_entries true ns x)) as [->|(s & [->| ->] & ->)]; cbn [avro_field rbind];
        fold G; (rewrite IHl by auto); reflexivity. }
    rewrite E. cbn [rbind].
    rewrite dset_labels0 by discriminate. rewrite dset_labels by discriminate. cbn [dset String.eqb Ascii.eqb Bool.eqb].
    rewrite short_two. reflexivity.
  - cbn [avro_tree get_c compact]. rewrite head_c_of by auto. cbn [rbind c_of c_logical].
    match goal with |- context [rbind (?go (map (tree_of ns) l)) _] => set (G := go) end.
    assert (E : G (map (tree_of ns) l) = Ok (map (fun x => compact x (json_entries true ns x)) l)).
    { clear OK IN. induction l as [|x l IHl]; [reflexivity|]. cbn [map]. inversion IH; inversion W; inversion J; subst.
      unfold G. cbn [rbind]. rewrite H1 by auto. cbn [rbind]. fold G. rewrite IHl by auto. reflexivity. }
    rewrite E. cbn [rbind].
    rewrite dset_labels0 by discriminate. rewrite short_list by apply label_no_type. reflexivity.
Qed.
