(** C142: the text of the gains. *)
From Coq Require Import String Ascii List Arith Reals Lra Lia Bool.
From Verif Require Import Gain_Model GainText_Model.
Import ListNotations.
Local Open Scope string_scope.
Local Open Scope nat_scope.

(** ** Specification *)
Fixpoint has (c : ascii) (s : string) : bool := match s with "" => false | String x r => Ascii.eqb x c || has c r end.
Fixpoint occurrences (c : ascii) (s : string) : nat := match s with "" => 0 | String x r => (if Ascii.eqb x c then 1 else 0) + occurrences c r end.
(** A printed number has none of the characters that surround it. *)
Definition plain (s : string) : Prop := forall c, In c ["("; ")"; ";"; "x"; " "]%char -> has c s = false.
(** The function the text of a hyperbolic gain writes: a.exp(-b(x-d))+c *)
Definition written (g : hyperbolic) (x : R) : R := (h_a g * exp (- h_b g * (x - h_d g)) + h_c g)%R.

Lemma upto (c : ascii) a b r s : has c a = false -> has c b = false -> a ++ String c r = b ++ String c s -> a = b /\ r = s.
Proof.
  revert b. induction a as [|x a IH]; intros [|y b] Ha Hb E; cbn [append has] in *.
  - split; congruence.
  - exfalso. injection E as E _. subst y. rewrite Ascii.eqb_refl in Hb. discriminate.
  - exfalso. injection E as E _. subst x. rewrite Ascii.eqb_refl in Ha. discriminate.
  - apply Bool.orb_false_iff in Ha, Hb. injection E as -> E. destruct (IH b) as [-> ->]; [apply Ha|apply Hb|exact E|auto].
Qed.
Lemma has_app c a b : has c (a ++ b) = has c a || has c b.
Proof. induction a as [|x a IH]; [reflexivity|]. cbn. now rewrite IH, Bool.orb_assoc. Qed.
Lemma occ_app c a b : occurrences c (a ++ b) = occurrences c a + occurrences c b.
Proof. induction a as [|x a IH]; [reflexivity|]. cbn. rewrite IH. lia. Qed.
Lemma has_occ c s : has c s = false -> occurrences c s = 0.
Proof. induction s as [|x s IH]; [reflexivity|]. cbn. destruct (Ascii.eqb x c); [discriminate|exact IH]. Qed.
Lemma cancel (a b c : string) : a ++ b = a ++ c -> b = c.
Proof. induction a as [|x a IH]; [auto|]. cbn. intros E. injection E. exact IH. Qed.
Lemma assoc (a b c : string) : (a ++ b) ++ c = a ++ b ++ c.
Proof. induction a; cbn; congruence. Qed.
Lemma cancel_r (a b c : string) : a ++ c = b ++ c -> a = b.
Proof.
  assert (L : forall x y : string, String.length (x ++ y) = String.length x + String.length y) by (induction x as [|u x I]; intros y; cbn; [reflexivity|now rewrite I]).
  revert b. induction a as [|x a IH]; intros [|y b] E; cbn in E; [reflexivity| | |].
  - exfalso. apply (f_equal String.length) in E. cbn in E. rewrite L in E. lia.
  - exfalso. apply (f_equal String.length) in E. cbn in E. rewrite L in E. lia.
  - injection E as -> E. f_equal. now apply IH.
Qed.

Section Text.
Variable pd : R -> string.
Hypothesis pd_plain : forall v, plain (pd v).
Ltac pl := apply pd_plain; cbn; auto 10.

Lemma last_cut gain gain' r r' : last_text pd gain ++ " (" ++ r = last_text pd gain' ++ " (" ++ r' ->
  option_map pd gain = option_map pd gain' /\ r = r'.
Proof.
  destruct gain as [v|], gain' as [w|]; cbn [last_text option_map]; intros E; [|discriminate E|discriminate E|].
  - rewrite !assoc in E. apply cancel in E. change (" (" ++ r) with (String " " ("(" ++ r)) in E. change (" (" ++ r') with (String " " ("(" ++ r')) in E.
    apply upto in E; [|pl|pl]. destruct E as [-> E]. apply (cancel "(") in E. auto.
  - split; [reflexivity|]. exact (cancel " (" _ _ E).
Qed.
(** The text of an adaptive gain shows the gain last computed, if any, and the three coefficients. *)
Theorem adaptive_text_determines name gain gain' g g' :
  adaptive_text pd name gain g = adaptive_text pd name gain' g' ->
  option_map pd gain = option_map pd gain' /\ pd (a_a g) = pd (a_a g') /\ pd (a_b g) = pd (a_b g') /\ pd (a_c g) = pd (a_c g').
Proof.
  unfold adaptive_text. intros E. apply cancel, cancel, last_cut in E. destruct E as [-> E]. split; [reflexivity|].
  apply (upto ";") in E; [|pl|pl]. destruct E as [-> E]. apply (upto ";") in E; [|pl|pl]. destruct E as [-> E].
  apply (upto ")") in E; [|pl|pl]. destruct E as [-> _]. auto.
Qed.
(** The text of a hyperbolic gain shows the gain last computed, if any, and the four coefficients. *)
Theorem hyperbolic_text_determines name gain gain' g g' :
  hyperbolic_text pd name gain g = hyperbolic_text pd name gain' g' ->
  option_map pd gain = option_map pd gain' /\ pd (h_a g) = pd (h_a g') /\ pd (h_b g) = pd (h_b g') /\ pd (h_c g) = pd (h_c g') /\ pd (h_d g) = pd (h_d g').
Proof.
  unfold hyperbolic_text. intros E. apply cancel, cancel, last_cut in E. destruct E as [-> E]. split; [reflexivity|].
  assert (X : forall v r, pd v ++ ".exp(-" ++ r = (pd v ++ ".e") ++ String "x" ("p(-" ++ r)) by (intros; rewrite assoc; reflexivity).
  rewrite !X in E. apply upto in E; [|rewrite has_app; cbn; rewrite Bool.orb_false_r; pl|rewrite has_app; cbn; rewrite Bool.orb_false_r; pl].
  destruct E as [A E]. apply cancel_r in A. apply cancel in E. apply (upto "(") in E; [|pl|pl]. destruct E as [B E].
  apply (cancel "x-") in E. apply (upto ")") in E; [|pl|pl]. destruct E as [D E]. apply (cancel ")+") in E. auto 10.
Qed.
(** Finding: that text leaves a parenthesis open. *)
Theorem hyperbolic_text_open_refuted name gain g : has "(" name = false -> has ")" name = false ->
  occurrences "(" (hyperbolic_text pd name gain g) = S (occurrences ")" (hyperbolic_text pd name gain g)).
Proof.
  intros N M. assert (P : forall v, occurrences "(" (pd v) = 0 /\ occurrences ")" (pd v) = 0) by (intros v; split; apply has_occ; pl).
  assert (L : occurrences "(" (last_text pd gain) = 0 /\ occurrences ")" (last_text pd gain) = 0).
  { destruct gain as [v|]; [|split; reflexivity]. cbn [last_text]. rewrite !occ_app, (proj1 (P v)), (proj2 (P v)). split; reflexivity. }
  unfold hyperbolic_text. rewrite !occ_app, !(proj1 (P _)), !(proj2 (P _)), (proj1 L), (proj2 L), (has_occ _ _ N), (has_occ _ _ M). reflexivity.
Qed.
End Text.

(** Finding: the function written is not the gain computed: at every error they agree only for a constant gain. *)
Lemma written_above y : (1 / 2 * (tanh y + 1) < exp y)%R.
Proof.
  unfold tanh, sinh, cosh. pose proof (exp_pos y) as P. pose proof (exp_pos (- y)) as Q.
  assert (M : (exp y * exp (- y) = 1)%R) by (rewrite <- exp_plus, Rplus_opp_r; apply exp_0).
  set (a := exp y) in *. set (b := exp (- y)) in *.
  replace (1 / 2 * ((a - b) / 2 / ((a + b) / 2) + 1))%R with (a / (a + b))%R by (field; lra).
  apply (Rmult_lt_reg_r (a + b)); [lra|]. replace (a / (a + b) * (a + b))%R with a by (field; lra).
  assert (S : (0 <= (a - b) * (a - b))%R) by apply Rle_0_sqr. assert (T : (1 < a + b)%R) by nra. nra.
Qed.
Theorem hyperbolic_text_formula_refuted g error :
  (written g (norm error) = h_computeGain g error <-> h_a g = 0%R) /\
  ((0 < h_a g)%R -> (h_computeGain g error < written g (norm error))%R).
Proof.
  unfold written, h_computeGain. pose proof (written_above (- h_b g * (norm error - h_d g))) as W.
  set (y := (- h_b g * (norm error - h_d g))%R) in *. split; [split|].
  - intros E. destruct (Req_dec (h_a g) 0) as [Z|Z]; [exact Z|exfalso].
    assert (X : (h_a g * (exp y - 1 / 2 * (tanh y + 1)) = 0)%R) by lra. apply Rmult_integral in X. destruct X; lra.
  - intros ->. lra.
  - intros P. nra.
Qed.

(** ** Cases: a way to print that meets the hypothesis, and a gain that is not constant. *)
Definition sgn_text (v : R) : string := if Rlt_dec v 0 then "-1.5e-05" else "0.1".
Example plain_case : forall v, plain (sgn_text v).
Proof. intros v c H. unfold sgn_text. destruct (Rlt_dec v 0); cbn in H; repeat (destruct H as [<-|H]; [reflexivity|]); contradiction. Qed.
Example adaptive_text_case : adaptive_text sgn_text "g" (Some (-1)%R) (mkA 1 2 3) = "Gain Adaptative g = -1.5e-05 (0.1;0.1;0.1) ".
Proof. unfold adaptive_text, last_text, sgn_text. cbn [a_a a_b a_c]. repeat (destruct Rlt_dec; [|try lra]); try lra. all: repeat (destruct Rlt_dec; try lra). all: reflexivity. Qed.
Example formula_case : (h_computeGain (mkH 1 1 0 0) [] < written (mkH 1 1 0 0) (norm []))%R.
Proof. apply hyperbolic_text_formula_refuted. cbn. lra. Qed.

Print Assumptions adaptive_text_determines.
Print Assumptions hyperbolic_text_determines.
Print Assumptions hyperbolic_text_open_refuted.
Print Assumptions hyperbolic_text_formula_refuted.
