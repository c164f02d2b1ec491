(** Deciding the conditions of C53 for concrete graphs without nested bodies, for examples. *)
From Coq Require Import String List Bool Arith Lia.
From Verif Require Import FGraph FGraphProofs FGraphSpec InlineModel InlineSpec InlineProofs InlineProofs3 InlineProofs4 WhileSpec.
Import ListNotations.
Local Open Scope string_scope.
Local Open Scope list_scope.

Fixpoint nodupb (l : list string) : bool := match l with [] => true | x :: l' => negb (mem x l') && nodupb l' end.
Lemma nodupb_ok l : nodupb l = true -> NoDup l.
Proof. induction l as [|x l IH]; intro H; constructor; cbn in H; apply andb_true_iff in H; destruct H as [H1 H2]; auto. apply negb_true_iff in H1. now apply mem_false. Qed.
Definition flat (g : fgraph) : bool := forallb (fun n => match f_bodies n with [] => true | _ => false end) (f_nodes g).
Lemma flat_ok g : flat g = true -> forall n, In n (f_nodes g) -> f_bodies n = [].
Proof. intros H n I. unfold flat in H. rewrite forallb_forall in H. specialize (H n I). destruct (f_bodies n); [auto|discriminate]. Qed.
Definition one_of (ins : list string) (n : fnode) : bool := match f_out n with [i] => mem i ins | _ => false end.
Lemma one_of_ok ins n : one_of ins n = true -> exists i, f_out n = [i] /\ In i ins.
Proof. unfold one_of. destruct (f_out n) as [|i [|]]; try discriminate. intro H. exists i. split; auto. now apply mem_in. Qed.
Definition makes (i : string) (n : fnode) : bool := is_graph_input n && match f_out n with [x] => String.eqb x i | _ => false end.
Lemma makes_ok i ns : existsb (makes i) ns = true -> exists n, In n ns /\ placeholder n /\ f_out n = [i].
Proof.
  intro H. apply existsb_exists in H. destruct H as (n & I & H). unfold makes in H. apply andb_true_iff in H. destruct H as [H1 H2]. exists n. split; auto. split; [now apply graph_input_iff|].
  destruct (f_out n) as [|x [|]]; try discriminate. apply String.eqb_eq in H2. now subst.
Qed.
Definition functionb (g : fgraph) : bool :=
  flat g && forallb (fun n => negb (is_graph_input n) || (match f_in n with [] => true | _ => false end && one_of (f_ins g) n)) (f_nodes g) &&
  forallb (fun i => existsb (makes i) (f_nodes g)) (f_ins g) && nodupb (f_ins g) && nodupb (outputs_of (f_nodes g)) && negb (mem "" (outputs_of (f_nodes g))) && nodupb (map f_name (f_nodes g)) &&
  forallb (fun o => mem o (outputs_of (f_nodes g))) (f_outs g) && forallb (fun n => forallb (fun t => String.eqb t "" || mem t (outputs_of (f_nodes g))) (fv_node n)) (f_nodes g).
Lemma functionb_ok g : functionb g = true -> function_graph g.
Proof.
  unfold functionb. intro H. repeat (apply andb_true_iff in H; destruct H as [H ?H]). rewrite forallb_forall in *. constructor; auto using nodupb_ok.
  - intros n I P. specialize (H7 n I). apply graph_input_iff in P. rewrite P in H7. cbn [negb orb] in H7. apply andb_true_iff in H7. destruct H7 as [K1 K2]. split; [destruct (f_in n); [auto|discriminate]|]. split; [now apply (flat_ok g)|now apply one_of_ok].
  - intros i I. apply makes_ok. auto.
  - apply mem_false. now apply negb_true_iff.
  - intros n b t I J. rewrite (flat_ok g H n I) in J. destruct J.
  - intros o I. apply mem_in. auto.
  - intros n t I J. specialize (H0 n I). rewrite forallb_forall in H0. specialize (H0 t J). apply orb_true_iff in H0. destruct H0 as [K|K]; [left; now apply String.eqb_eq|right; now apply mem_in].
Qed.

Fixpoint orderb (l : list fnode) : bool :=
  match l with [] => true | n :: l' => (is_graph_input n || forallb (fun t => negb (mem t (outputs_of (n :: l')))) (f_in n)) && orderb l' end.
Lemma orderb_ok l : orderb l = true -> forall l1 n l2 t, l = l1 ++ n :: l2 -> ~ placeholder n -> In t (f_in n) -> ~ In t (outputs_of (n :: l2)).
Proof.
  induction l as [|m l IH]; intros H l1 n l2 t E; [destruct l1; discriminate|]. cbn [orderb] in H. apply andb_true_iff in H. destruct H as [H1 H2]. destruct l1 as [|m' l1]; injection E as -> ->; [|eauto].
  intros NP I. apply graph_input_false in NP. rewrite NP in H1. cbn [orb] in H1. rewrite forallb_forall in H1. specialize (H1 t I). apply negb_true_iff in H1. now apply mem_false.
Qed.
Fixpoint targetb (binding : list (string * string)) (ins acc : list string) (l : list fnode) : bool :=
  match l with
  | [] => true
  | n :: l' => (match f_out n with [i] => negb (mem i ins) || match bound binding i with Some p => negb (mem p acc) | None => true end | _ => true end) && targetb binding ins (acc ++ f_out n) l'
  end.
Lemma targetb_ok binding ins : forall l acc, targetb binding ins acc l = true -> forall l1 n l2 i p, l = l1 ++ n :: l2 -> f_out n = [i] -> In i ins -> binds binding i p -> ~ In p (acc ++ outputs_of l1).
Proof.
  induction l as [|m l IH]; intros acc H l1 n l2 i p E; [destruct l1; discriminate|]. cbn [targetb] in H. apply andb_true_iff in H. destruct H as [H1 H2]. destruct l1 as [|m' l1]; injection E as -> E.
  - intros Eo Ii B. subst l. rewrite Eo in H1. apply mem_in in Ii. rewrite Ii in H1. apply bound_iff in B. rewrite B in H1. cbn [negb orb] in H1. apply negb_true_iff in H1. cbn. rewrite app_nil_r. now apply mem_false.
  - intros Eo Ii B. specialize (IH _ H2 l1 n l2 i p E Eo Ii B). rewrite <- app_assoc in IH. exact IH.
Qed.
Definition freeb (scope t : string) : bool := negb (String.prefix (scope ++ "_") t).
Lemma freeb_ok scope t : freeb scope t = true -> ~ in_scope scope t.
Proof.
  unfold freeb. intros P (s & ->). assert (G : forall a b, String.prefix a (a ++ b) = true).
  { induction a as [|c a IH]; intro b; [destruct b; reflexivity|]. cbn. destruct (Ascii.ascii_dec c c); [apply IH|congruence]. }
  assert (A : (scope ++ "_" ++ s = (scope ++ "_") ++ s)%string) by (clear; induction scope as [|c scope IH]; [reflexivity|]; cbn; now rewrite <- IH). rewrite A, G in P. discriminate.
Qed.
Definition inlinableb (scope : string) (binding : list (string * string)) (g : fgraph) : bool :=
  flat g && forallb (fun n => negb (is_graph_input n) || one_of (f_ins g) n) (f_nodes g) &&
  forallb (fun i => existsb (makes i) (f_nodes g)) (f_ins g) && nodupb (f_ins g) && nodupb (outputs_of (f_nodes g)) && negb (mem "" (outputs_of (f_nodes g))) &&
  orderb (f_nodes g) && targetb binding (f_ins g) [] (f_nodes g) && forallb (fun n => is_graph_input n || String.eqb (f_dom n) "") (f_nodes g) && nodupb (f_outs g) &&
  forallb (fun o => mem o (outputs_of (f_nodes g)) && (negb (mem o (f_ins g)) || match bound binding o with Some _ => true | None => false end)) (f_outs g) &&
  forallb (fun i => match bound binding i with Some _ => true | None => forallb (fun n => negb (mem i (fv_node n))) (f_nodes g) end) (f_ins g) &&
  negb (String.eqb scope "") && forallb (fun n => forallb (freeb scope) (fv_node n)) (f_nodes g) && forallb (fun p => freeb scope (snd p)) binding.
Lemma inlinableb_ok scope binding g : inlinableb scope binding g = true -> inlinable scope binding g.
Proof.
  unfold inlinableb. intro H. repeat (apply andb_true_iff in H; destruct H as [H ?H]). pose proof (flat_ok g H) as FL. rewrite forallb_forall in *. constructor; auto using nodupb_ok.
  - intros n I P. specialize (H13 n I). apply graph_input_iff in P. rewrite P in H13. cbn [negb orb] in H13. split; auto. now apply one_of_ok.
  - intros i I. apply makes_ok. auto.
  - apply mem_false. now apply negb_true_iff.
  - now apply orderb_ok.
  - intros l1 n l2 i p E1 E2 E3 E4. exact (targetb_ok _ _ _ _ H7 l1 n l2 i p E1 E2 E3 E4).
  - intros n I P. specialize (H6 n I). apply graph_input_false in P. rewrite P in H6. now apply String.eqb_eq.
  - intros o I. specialize (H4 o I). apply andb_true_iff in H4. destruct H4 as [K1 K2]. split; [now apply mem_in|]. intro J. apply mem_in in J. rewrite J in K2. destruct (bound binding o) as [p|] eqn:B; [|discriminate]. exists p. now apply bound_iff.
  - intros i n I N J. specialize (H3 i I). destruct (bound binding i) as [p|] eqn:B; [exfalso; apply (N p); now apply bound_iff|]. rewrite forallb_forall in H3. specialize (H3 n J). apply negb_true_iff in H3. now apply mem_false.
  - intros n b I J. rewrite (FL n I) in J. destruct J.
  - intros ->. discriminate.
  - intros n t I J. specialize (H1 n I). rewrite forallb_forall in H1. apply freeb_ok. auto.
  - intros n b t I J. rewrite (FL n I) in J. destruct J.
  - intros i p B. apply freeb_ok. clear - B H0. induction B; [apply (H0 (i, p)); left; auto|apply IHB; intros x Ix; apply H0; right; auto].
Qed.

Fixpoint eqs (a b : list string) : bool := match a, b with [], [] => true | x :: a', y :: b' => String.eqb x y && eqs a' b' | _, _ => false end.
Lemma eqs_ok a : forall b, eqs a b = true -> a = b.
Proof. induction a as [|x a IH]; intros [|y b] H; try discriminate; auto. cbn in H. apply andb_true_iff in H. destruct H as [H1 H2]. apply String.eqb_eq in H1. f_equal; auto. Qed.
Definition only_reader (ns : list fnode) (t : string) (n : fnode) : bool := forallb (fun m => negb (mem t (fv_node m)) || String.eqb (f_name m) (f_name n)) ns.
Lemma only_reader_ok ns t n : NoDup (map f_name ns) -> In n ns -> only_reader ns t n = true -> forall m, In m ns -> In t (fv_node m) -> m = n.
Proof.
  intros ND In_n H m Im Ft. unfold only_reader in H. rewrite forallb_forall in H. specialize (H m Im). apply mem_in in Ft. rewrite Ft in H. cbn [negb orb] in H. apply String.eqb_eq in H.
  clear - ND In_n Im H. induction ns as [|k l IH]; [destruct In_n|]. cbn [map] in ND. inversion ND as [|? ? N ND']; subst. destruct In_n as [->|I1], Im as [->|I2]; auto.
  - exfalso. apply N. rewrite <- H. now apply in_map.
  - exfalso. apply N. rewrite H. now apply in_map.
Qed.
Definition unread (ns : list fnode) (t : string) : bool := forallb (fun m => negb (mem t (fv_node m))) ns.
Lemma unread_ok ns t : unread ns t = true -> forall n, In n ns -> ~ In t (fv_node n).
Proof. intros H n I. unfold unread in H. rewrite forallb_forall in H. specialize (H n I). apply negb_true_iff in H. now apply mem_false. Qed.
Definition nob (n : fnode) : bool := match f_bodies n with [] => true | _ => false end.
Fixpoint pathb (ns : list fnode) (t : string) (path : list string) (o : string) : bool :=
  match path with
  | [] => String.eqb t o && unread ns t
  | t' :: path' => existsb (fun n => String.eqb (f_op n) "Identity" && eqs (f_in n) [t] && eqs (f_out n) [t'] && nob n && only_reader ns t n) ns && pathb ns t' path' o
  end.
Lemma pathb_ok ns : NoDup (map f_name ns) -> forall path t o, pathb ns t path o = true -> list_path ns t path o.
Proof.
  intro ND. induction path as [|t' path IH]; intros t o H; cbn in H; apply andb_true_iff in H; destruct H as [H1 H2].
  - apply String.eqb_eq in H1. subst. constructor. now apply unread_ok.
  - apply existsb_exists in H1. destruct H1 as (n & I & H). repeat (apply andb_true_iff in H; destruct H as [H ?H]). apply (path_next ns t t' path o n); auto using eqs_ok; [now apply String.eqb_eq|destruct n; cbn in *; unfold nob in *; cbn in *; destruct f_bodies; [auto|discriminate]|now apply only_reader_ok].
Qed.
Definition writesb (ns : list fnode) (p o : string) (w : lwrite) : bool :=
  String.eqb (wr_param w) p && existsb (fun n => String.eqb (f_op n) "TensorListSetItem" && eqs (f_in n) [p; wr_index w; wr_item w] && eqs (f_out n) [wr_out w] && nob n && only_reader ns p n) ns &&
  negb (String.eqb p (wr_index w)) && negb (String.eqb p (wr_item w)) && pathb ns (wr_out w) (wr_path w) o.
Lemma writesb_ok ns p o w : NoDup (map f_name ns) -> writesb ns p o w = true -> writes ns p o w.
Proof.
  intros ND H. unfold writesb in H. repeat (apply andb_true_iff in H; destruct H as [H ?H]). split; [now apply String.eqb_eq|]. apply existsb_exists in H3. destruct H3 as (n & I & K). repeat (apply andb_true_iff in K; destruct K as [K ?K]).
  exists n. apply negb_true_iff in H1, H2. apply String.eqb_neq in H1, H2. repeat split; auto using eqs_ok; [now apply String.eqb_eq|unfold nob in *; destruct (f_bodies n); [auto|discriminate]|now apply only_reader_ok|now apply pathb_ok].
Qed.
Fixpoint all2b {A B} (p : A -> B -> bool) (a : list A) (b : list B) : bool := match a, b with [], [] => true | x :: a', y :: b' => p x y && all2b p a' b' | _, _ => false end.
Lemma all2b_ok {A B} (p : A -> B -> bool) (P : A -> B -> Prop) : (forall x y, p x y = true -> P x y) -> forall a b, all2b p a b = true -> Forall2 P a b.
Proof. intros HP. induction a as [|x a IH]; intros [|y b] H; try discriminate; constructor; cbn in H; apply andb_true_iff in H; destruct H; auto. Qed.
Definition freshb (scope : string) (g : fgraph) : bool := forallb (fun n => forallb (freeb scope) (fv_node n ++ f_out n)) (f_nodes g).
Lemma freshb_ok scope g : freshb scope g = true -> fresh_in scope g.
Proof. intros H n t I J. unfold freshb in H. rewrite forallb_forall in H. specialize (H n I). rewrite forallb_forall in H. apply freeb_ok. apply H. apply in_app_iff. exact J. Qed.
Definition loop_bodyb (ks : list kind) (body : fgraph) (ws : list lwrite) (outer : list string) (cname cparam : string) : bool :=
  functionb body && Nat.eqb (length (f_ins body)) (2 + length ks) && Nat.eqb (length (f_outs body)) (2 + length ks) &&
  all2b (fun po w => writesb (f_nodes body) (fst po) (snd po) w) (combine (of_kind Lst ks (skipn 2 (f_ins body))) (of_kind Lst ks (skipn 2 (f_outs body)))) ws &&
  forallb (fun n => negb (String.eqb (f_op n) "TensorListSetItem") || existsb (fun w => eqs (f_in n) [wr_param w; wr_index w; wr_item w]) ws) (f_nodes body) &&
  nodupb (concat (map wr_names ws)) && forallb (fun o => forallb (fun w => negb (mem o (wr_names w))) ws) (of_kind Var ks (skipn 2 (f_outs body))) &&
  forallb (fun p => negb (mem p (["";"@@ALLOC";cparam] ++ outputs_of (f_nodes body))) && freeb "cond__" p) outer && negb (mem cname (map f_name (f_nodes body))) &&
  negb (mem cparam ("" :: outputs_of (f_nodes body))) && freeb "cond__" cparam && unread (f_nodes body) cparam && freshb "cond__" body.
Lemma loop_bodyb_ok ks body ws outer cname cparam : loop_bodyb ks body ws outer cname cparam = true -> loop_body ks body ws outer cname cparam.
Proof.
  unfold loop_bodyb. intro H. do 12 (apply andb_true_iff in H; destruct H as [H ?H]). pose proof (functionb_ok body H) as F. constructor; auto using nodupb_ok, freshb_ok.
  - now apply Nat.eqb_eq.
  - now apply Nat.eqb_eq.
  - revert H9. apply all2b_ok. intros po w Hw. apply writesb_ok; auto. exact (fn_names _ F).
  - intros n I Op. rewrite forallb_forall in H8. specialize (H8 n I). rewrite Op in H8. change (negb (String.eqb "TensorListSetItem" "TensorListSetItem")) with false in H8. cbn [orb] in H8. apply existsb_exists in H8. destruct H8 as (w & Iw & K). exists w. split; auto using eqs_ok.
  - intros o w Io Iw. rewrite forallb_forall in H6. specialize (H6 o Io). rewrite forallb_forall in H6. specialize (H6 w Iw). apply negb_true_iff in H6. now apply mem_false.
  - intros p I. rewrite forallb_forall in H5. specialize (H5 p I). apply andb_true_iff in H5. destruct H5 as [K1 K2]. apply negb_true_iff in K1. apply mem_false in K1. rewrite in_app_iff in K1. cbn [In] in K1. repeat split; try (intro; subst; tauto); try (now apply freeb_ok); try tauto.
  - apply mem_false. now apply negb_true_iff.
  - apply negb_true_iff in H3. apply mem_false in H3. cbn [In] in H3. split; [intro Ec; apply H3; left; symmetry; exact Ec|split; [tauto|split; [now apply freeb_ok|now apply unread_ok]]].
Qed.
Definition loop_condb (ks : list kind) (cond body : fgraph) (scope : string) (ins : list string) : bool :=
  functionb cond && Nat.eqb (length (f_ins cond)) (2 + length ks) && Nat.eqb (length (f_outs cond)) 1 &&
  forallb (fun p => negb (mem p (f_outs cond)) && unread (f_nodes cond) p) (of_kind Lst ks (skipn 2 (f_ins cond))) &&
  inlinableb scope (combine (keep2 ks (f_ins cond)) (keep2 ks ins)) (drop_lists ks cond) &&
  inlinableb "cond__" (combine (keep2 ks (f_ins cond)) (firstn 1 (f_ins body) ++ firstn 1 (skipn 1 ins) ++ not_lst ks (merge ks (skipn 2 (f_outs body)) (skipn 2 ins)))) (drop_lists ks cond).
Lemma loop_condb_ok ks cond body scope ins : loop_condb ks cond body scope ins = true -> loop_cond ks cond body scope ins.
Proof.
  unfold loop_condb. intro H. do 5 (apply andb_true_iff in H; destruct H as [H ?H]). constructor; auto using functionb_ok, inlinableb_ok; try (now apply Nat.eqb_eq).
  intros p I. rewrite forallb_forall in H2. specialize (H2 p I). apply andb_true_iff in H2. destruct H2 as [K1 K2]. apply negb_true_iff in K1. apply mem_false in K1. split; auto. now apply unread_ok.
Qed.
Definition roleb (op_of : string -> string) (reads : list string) (x p : string) (k : kind) : bool :=
  let reserved := mem (op_of x) ["TensorListReserve"; "TensorListResize"] in
  match k with Lst => reserved | Read => negb reserved && mem p reads | Var => negb reserved && negb (mem p reads) end.
Lemma roleb_ok op_of reads x p k : roleb op_of reads x p k = true -> role op_of reads x p k.
Proof.
  unfold roleb, role. destruct k; intro H; try (apply andb_true_iff in H; destruct H as [H1 H2]; apply negb_true_iff in H1; apply mem_false in H1; split; auto).
  - apply negb_true_iff in H2. now apply mem_false.
  - now apply mem_in.
  - now apply mem_in.
Qed.
Fixpoint rolesb (op_of : string -> string) (reads : list string) (ks : list kind) (ins params : list string) : bool :=
  match ks, ins, params with k :: ks', x :: ins', p :: ps' => roleb op_of reads x p k && rolesb op_of reads ks' ins' ps' | _, _, _ => true end.
Lemma rolesb_ok op_of reads : forall ks ins params, rolesb op_of reads ks ins params = true -> forall i k x p, nth_error ks i = Some k -> nth_error ins i = Some x -> nth_error params i = Some p -> role op_of reads x p k.
Proof.
  induction ks as [|k0 ks IH]; intros [|x0 ins] [|p0 ps] H [|i] k x p E1 E2 E3; try discriminate; cbn in H; apply andb_true_iff in H; destruct H as [H1 H2]; cbn in E1, E2, E3; [|eauto].
  injection E1 as <-. injection E2 as <-. injection E3 as <-. now apply roleb_ok.
Qed.
Definition while_nodeb (op_of : string -> string) (ta_reads : list string) (ks : list kind) (ws : list lwrite) (cond body : fgraph) (ins outs : list string)
  (mi cname cparam cond_name : string) : bool :=
  Nat.eqb (length ins) (2 + length ks) && Nat.eqb (length outs) (2 + length ks) && rolesb op_of ta_reads ks (skipn 2 ins) (skipn 2 (f_ins body)) &&
  loop_bodyb ks body ws (mi :: of_kind Read ks (skipn 2 ins)) cname cparam && loop_condb ks cond body cond_name (firstn 1 ins ++ mi :: skipn 2 ins).
Lemma while_nodeb_ok op_of ta_reads ks ws cond body ins outs mi cname cparam cond_name : while_nodeb op_of ta_reads ks ws cond body ins outs mi cname cparam cond_name = true -> lists_first ks ->
  while_node op_of ta_reads ks ws cond body ins outs mi cname cparam cond_name.
Proof.
  unfold while_nodeb. intros H LF. do 4 (apply andb_true_iff in H; destruct H as [H ?H]). constructor; auto using loop_bodyb_ok, loop_condb_ok; try (now apply Nat.eqb_eq). now apply rolesb_ok.
Qed.
Definition fresh_namesb (ins : list string) (nodes : list fnode) (pairs : list (string * string)) : bool :=
  nodupb (computed nodes) && forallb (fun x => negb (mem x (computed nodes))) ins && forallb (fun x => unread nodes x && forallb (fun n => forallb (fun b => negb (mem x (alldefs b))) (f_bodies n)) nodes) (map snd pairs).
Lemma fresh_namesb_ok ins nodes pairs : fresh_namesb ins nodes pairs = true -> fresh_names ins nodes pairs.
Proof.
  unfold fresh_namesb. intro H. do 2 (apply andb_true_iff in H; destruct H as [H ?H]). rewrite forallb_forall in *. constructor; auto using nodupb_ok.
  - intros x I. specialize (H1 x I). apply negb_true_iff in H1. now apply mem_false.
  - intros x n I J. specialize (H0 x I). apply andb_true_iff in H0. destruct H0 as [K1 K2]. split; [now apply (unread_ok nodes)|]. intros b Ib. rewrite forallb_forall in K2. specialize (K2 n J). rewrite forallb_forall in K2. specialize (K2 b Ib). apply negb_true_iff in K2. now apply mem_false.
Qed.
