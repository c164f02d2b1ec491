(** C59: what a match of one of the five patterns says. *)
From Coq Require Import String List Bool Arith Lia ZArith Reals.
From Verif Require Import FGraph FGraphProofs FGraphSpec Tensor MatchModel MatchSpec MatchProofs RewModel RewSpec RewMatch RewProofs3 GemmSpec.
Import ListNotations.
Local Open Scope string_scope. Local Open Scope list_scope. Local Open Scope nat_scope.

Lemma node2 ns i nm ty p q op t bs : ty <> "*" -> ~ In "" (type_set ty) -> fits (view ns) true (Pat i nm (Some ty) None [p; q]) op t bs ->
  exists o n a b oa ob b1 b2, op = Some o /\ nth_error ns o = Some n /\ In (f_op n) (type_set ty) /\ pair (f_in n) a b /\
    (forall k, oa = Some k -> k = index_of a ns) /\ (forall k, ob = Some k -> k = index_of b ns) /\
    (bs = (Pat i nm (Some ty) None [p; q], Some o, t) :: b1 ++ b2 \/ bs = (Pat i nm (Some ty) None [p; q], Some o, t) :: b2 ++ b1) /\
    fits (view ns) true p oa (Some a) b1 /\ fits (view ns) true q ob (Some b) b2.
Proof.
  intros N1 N2 F. apply fits2_inv in F; auto. destruct F as (o & x & y & b1 & b2 & -> & Ty & Sh & F1 & F2).
  destruct (view_inv ns o ty N2 Ty) as (n & E & T & G). exists o, n, (fst x), (fst y), (snd x), (snd y), b1, b2.
  split; auto. split; auto. split; auto. destruct Sh as [[Sh ->]|[Sh ->]]; rewrite G in Sh; apply view_in2 in Sh; destruct Sh as [Q K].
  - split; [rewrite Q; left; reflexivity|]. split; [apply K|]. split; [apply K|]. auto.
  - split; [rewrite Q; right; reflexivity|]. split; [apply K|]. split; [apply K|]. auto.
Qed.
Lemma node0 ns i nm ty op a bs : ty <> "*" -> ~ In "" (type_set ty) -> fits (view ns) true (leaf i nm ty) op (Some a) bs -> (forall k, op = Some k -> k = index_of a ns) ->
  exists o n, op = Some o /\ bs = [(leaf i nm ty, Some o, Some a)] /\ nth_error ns o = Some n /\ In (f_op n) (type_set ty) /\ In a (f_out n).
Proof.
  intros N1 N2 F K. apply fits_leaf_inv in F; auto. destruct F as (-> & o & -> & Ty). destruct (view_inv ns o ty N2 Ty) as (n & E & T & G). exists o, n.
  split; auto. split; auto. split; auto. split; auto. apply (index_out _ ns). rewrite <- (K o eq_refl). exact E.
Qed.
(** the part of a match that is a constant times something *)
Definition side (ns : list fnode) (m : match_result) (nm l u : string) : Prop :=
  (get_op_named m nm = None /\ l = u) \/
  exists mul k cn, get_op_named m nm <> None /\ op_of ns m nm = Some cn /\ In mul ns /\ f_op mul = "Mul" /\ In l (f_out mul) /\ pair (f_in mul) k u /\ In cn ns /\ f_op cn = "Const" /\ In k (f_out cn).
Definition sum_ops : list string := ["Add"; "AddV2"; "BiasAdd"].
Lemma gemm_match ns p o m : In p gemm_patterns -> (exists bs, fits (view ns) true p (Some o) None bs /\ m = fold_left add_binding bs (MatchResult [] [])) ->
  exists add mm l r ab c, nth_error ns o = Some add /\ op_of ns m "add" = Some add /\ In (f_op add) sum_ops /\ pair (f_in add) l r /\
    op_of ns m "matmul" = Some mm /\ In mm ns /\ f_op mm = "MatMul" /\ In ab (f_out mm) /\ tensor_of m "C" = Some c /\
    side ns m "alpha" l ab /\ side ns m "beta" r c.
Proof.
  intros Hp (bs & F & ->). cbn [gemm_patterns In] in Hp. destruct Hp as [<-|[<-|[<-|[<-|[<-|[]]]]]].
  - apply node2 in F; [|discriminate|not_in]. destruct F as (o0 & add & l & r & ol & or & b1 & b2 & Eo & N0 & T0 & P0 & Kl & Kr & Sh & F1 & F2). injection Eo as <-.
    apply node2 in F1; [|discriminate|not_in]. destruct F1 as (o1 & m1 & k1 & ab & ok1 & oab & b3 & b4 & Eo1 & N1 & T1 & P1 & Kk1 & Kab & Sh1 & F3 & F4).
    apply node2 in F2; [|discriminate|not_in]. destruct F2 as (o2 & m2 & k2 & c & ok2 & oc & b5 & b6 & Eo2 & N2 & T2 & P2 & Kk2 & Kc & Sh2 & F5 & F6).
    apply node0 in F3; [|discriminate|not_in|exact Kk1]. destruct F3 as (o3 & cn1 & Eo3 & E3 & N3 & T3 & O3).
    apply node0 in F4; [|discriminate|not_in|exact Kab]. destruct F4 as (o4 & mm & Eo4 & E4 & N4 & T4 & O4).
    apply node0 in F5; [|discriminate|not_in|exact Kk2]. destruct F5 as (o5 & cn2 & Eo5 & E5 & N5 & T5 & O5).
    apply fits_star_inv in F6. destruct T1 as [T1|[]], T2 as [T2|[]], T3 as [T3|[]], T4 as [T4|[]], T5 as [T5|[]].
    exists add, mm, l, r, ab, c. set (M := fold_left add_binding bs (MatchResult [] [])).
    assert (K : op_of ns M "add" = nth_error ns o /\ op_of ns M "matmul" = nth_error ns o4 /\ op_of ns M "alpha" = nth_error ns o3 /\ op_of ns M "beta" = nth_error ns o5 /\
      tensor_of M "C" = Some c /\ get_op_named M "alpha" <> None /\ get_op_named M "beta" <> None).
    { subst M b3 b4 b5 b6. destruct Sh as [-> | ->], Sh1 as [-> | ->], Sh2 as [-> | ->]; cbn; repeat (split; [reflexivity|]); split; discriminate. }
    destruct K as (K1 & K2 & K3 & K4 & K5 & K6 & K7).
    split; [exact N0|]. split; [congruence|]. split; [destruct T0 as [<-|[<-|[]]]; cbn; auto|]. split; [exact P0|]. split; [congruence|]. split; [exact (nth_error_In _ _ N4)|]. split; [auto|]. split; [exact O4|]. split; [exact K5|].
    split; right.
    + exists m1, k1, cn1. split; [exact K6|]. split; [congruence|]. split; [exact (nth_error_In _ _ N1)|]. split; [auto|]. split; [apply (index_out _ ns); rewrite <- (Kl o1 Eo1); exact N1|]. split; [exact P1|]. split; [exact (nth_error_In _ _ N3)|]. auto.
    + exists m2, k2, cn2. split; [exact K7|]. split; [congruence|]. split; [exact (nth_error_In _ _ N2)|]. split; [auto|]. split; [apply (index_out _ ns); rewrite <- (Kr o2 Eo2); exact N2|]. split; [exact P2|]. split; [exact (nth_error_In _ _ N5)|]. auto.
  - apply node2 in F; [|discriminate|not_in]. destruct F as (o0 & add & l & r & ol & or & b1 & b2 & Eo & N0 & T0 & P0 & Kl & Kr & Sh & F1 & F2). injection Eo as <-.
    apply node2 in F1; [|discriminate|not_in]. destruct F1 as (o1 & m1 & ab & k1 & oab & ok1 & b4 & b3 & Eo1 & N1 & T1 & P1 & Kab & Kk1 & Sh1 & F4 & F3).
    apply node0 in F3; [|discriminate|not_in|exact Kk1]. destruct F3 as (o3 & cn1 & Eo3 & E3 & N3 & T3 & O3).
    apply node0 in F4; [|discriminate|not_in|exact Kab]. destruct F4 as (o4 & mm & Eo4 & E4 & N4 & T4 & O4).
    apply fits_star_inv in F2. destruct T1 as [T1|[]], T3 as [T3|[]], T4 as [T4|[]].
    exists add, mm, l, r, ab, r. set (M := fold_left add_binding bs (MatchResult [] [])).
    assert (K : op_of ns M "add" = nth_error ns o /\ op_of ns M "matmul" = nth_error ns o4 /\ op_of ns M "alpha" = nth_error ns o3 /\ get_op_named M "beta" = None /\
      tensor_of M "C" = Some r /\ get_op_named M "alpha" <> None).
    { subst M b2 b3 b4. destruct Sh as [-> | ->], Sh1 as [-> | ->]; cbn; repeat (split; [reflexivity|]); discriminate. }
    destruct K as (K1 & K2 & K3 & K4 & K5 & K6).
    split; [exact N0|]. split; [congruence|]. split; [destruct T0 as [<-|[<-|[]]]; cbn; auto|]. split; [exact P0|]. split; [congruence|]. split; [exact (nth_error_In _ _ N4)|]. split; [auto|]. split; [exact O4|]. split; [exact K5|].
    split; [right|left; auto].
    exists m1, k1, cn1. split; [exact K6|]. split; [congruence|]. split; [exact (nth_error_In _ _ N1)|]. split; [auto|]. split; [apply (index_out _ ns); rewrite <- (Kl o1 Eo1); exact N1|]. split; [destruct P1; [right|left]; auto|]. split; [exact (nth_error_In _ _ N3)|]. auto.
  - apply node2 in F; [|discriminate|not_in]. destruct F as (o0 & add & l & r & ol & or & b1 & b2 & Eo & N0 & T0 & P0 & Kl & Kr & Sh & F1 & F2). injection Eo as <-.
    apply node2 in F2; [|discriminate|not_in]. destruct F2 as (o2 & m2 & k2 & c & ok2 & oc & b5 & b6 & Eo2 & N2 & T2 & P2 & Kk2 & Kc & Sh2 & F5 & F6).
    apply node0 in F1; [|discriminate|not_in|exact Kl]. destruct F1 as (o4 & mm & Eo4 & E4 & N4 & T4 & O4).
    apply node0 in F5; [|discriminate|not_in|exact Kk2]. destruct F5 as (o5 & cn2 & Eo5 & E5 & N5 & T5 & O5).
    apply fits_star_inv in F6. destruct T2 as [T2|[]], T4 as [T4|[]], T5 as [T5|[]].
    exists add, mm, l, r, l, c. set (M := fold_left add_binding bs (MatchResult [] [])).
    assert (K : op_of ns M "add" = nth_error ns o /\ op_of ns M "matmul" = nth_error ns o4 /\ get_op_named M "alpha" = None /\ op_of ns M "beta" = nth_error ns o5 /\
      tensor_of M "C" = Some c /\ get_op_named M "beta" <> None).
    { subst M b1 b5 b6. destruct Sh as [-> | ->], Sh2 as [-> | ->]; cbn; repeat (split; [reflexivity|]); discriminate. }
    destruct K as (K1 & K2 & K3 & K4 & K5 & K6).
    split; [exact N0|]. split; [congruence|]. split; [destruct T0 as [<-|[<-|[]]]; cbn; auto|]. split; [exact P0|]. split; [congruence|]. split; [exact (nth_error_In _ _ N4)|]. split; [auto|]. split; [exact O4|]. split; [exact K5|].
    split; [left; auto|right].
    exists m2, k2, cn2. split; [exact K6|]. split; [congruence|]. split; [exact (nth_error_In _ _ N2)|]. split; [auto|]. split; [apply (index_out _ ns); rewrite <- (Kr o2 Eo2); exact N2|]. split; [exact P2|]. split; [exact (nth_error_In _ _ N5)|]. auto.
  - apply node2 in F; [|discriminate|not_in]. destruct F as (o0 & add & l & r & ol & or & b1 & b2 & Eo & N0 & T0 & P0 & Kl & Kr & Sh & F1 & F2). injection Eo as <-.
    apply node0 in F1; [|discriminate|not_in|exact Kl]. destruct F1 as (o4 & mm & Eo4 & E4 & N4 & T4 & O4).
    apply fits_star_inv in F2. destruct T4 as [T4|[]].
    exists add, mm, l, r, l, r. set (M := fold_left add_binding bs (MatchResult [] [])).
    assert (K : op_of ns M "add" = nth_error ns o /\ op_of ns M "matmul" = nth_error ns o4 /\ get_op_named M "alpha" = None /\ get_op_named M "beta" = None /\ tensor_of M "C" = Some r).
    { subst M b1 b2. destruct Sh as [-> | ->]; cbn; repeat (split; [reflexivity|]); reflexivity. }
    destruct K as (K1 & K2 & K3 & K4 & K5).
    split; [exact N0|]. split; [congruence|]. split; [destruct T0 as [<-|[<-|[]]]; cbn; auto|]. split; [exact P0|]. split; [congruence|]. split; [exact (nth_error_In _ _ N4)|]. split; [auto|]. split; [exact O4|]. split; [exact K5|].
    split; left; auto.
  - apply node2 in F; [|discriminate|not_in]. destruct F as (o0 & add & l & r & ol & or & b1 & b2 & Eo & N0 & T0 & P0 & Kl & Kr & Sh & F1 & F2). injection Eo as <-.
    apply node0 in F1; [|discriminate|not_in|exact Kl]. destruct F1 as (o4 & mm & Eo4 & E4 & N4 & T4 & O4).
    apply fits_star_inv in F2. destruct T4 as [T4|[]].
    exists add, mm, l, r, l, r. set (M := fold_left add_binding bs (MatchResult [] [])).
    assert (K : op_of ns M "add" = nth_error ns o /\ op_of ns M "matmul" = nth_error ns o4 /\ get_op_named M "alpha" = None /\ get_op_named M "beta" = None /\ tensor_of M "C" = Some r).
    { subst M b1 b2. destruct Sh as [-> | ->]; cbn; repeat (split; [reflexivity|]); reflexivity. }
    destruct K as (K1 & K2 & K3 & K4 & K5).
    split; [exact N0|]. split; [congruence|]. split; [destruct T0 as [<-|[]]; cbn; auto|]. split; [exact P0|]. split; [congruence|]. split; [exact (nth_error_In _ _ N4)|]. split; [auto|]. split; [exact O4|]. split; [exact K5|].
    split; left; auto.
Qed.
