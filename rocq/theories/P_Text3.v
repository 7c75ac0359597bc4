(** * Proofs about printed binary trees *)
From Verif Require Import Prelude M_Fuzzy M_Discretize M_Rule M_FDT M_FBDT M_Text S_Rule S_FDT S_FBDT S_Text P_FDT3 P_FBDT P_FBDT2 P_Text.
From Coq Require Import Ascii.
Set Implicit Arguments.
Open Scope string_scope.

Lemma btext_eq sd leaf cs cv lv va vr mu ig : btree_text sd (BTree leaf cs cv lv va vr mu ig) = tabs lv ++ bhead_text va vr ++
  (if leaf then tabs lv ++ "Class value: " ++ class_text sd cv else sconcat (map (btree_text sd) cs) ++ nl ++ tabs lv) ++ nl.
Proof. reflexivity. Qed.
Section Lines.
  Variable sd : dict Z Qc -> string.
  Hypothesis sd_line : forall d, ~ has 10 (sd d).
  Variable vars : list fvar.
  Hypothesis fnames : forall v, In v vars -> ~ has 10 (fv_name v).
  Lemma btext_lines classes t : forall r, bwf vars classes t -> (b_value t = None -> b_var t = None) ->
    printed (btree_text sd t ++ r) = (flat_map (bnode_lines vars sd) (boutline t) ++ printed r)%list.
  Proof.
    induction t as [lf cs cv lv va vr mu ig IH] using btree_ind'. intros r W V. cbn [bwf b_value b_var] in W, V.
    destruct W as [O W]. rewrite btext_eq. unfold tabs. set (k := Z.to_nat lv).
    assert (H : forall q, printed (stimes k tab ++ bhead_text va vr ++ q) = (k, match va with
        | None => "Root "
        | Some (a, _) => "Feature " ++ match nth_error vars a with Some v => fv_name v | None => "" end ++ " Root "
        end) :: printed q).
    { intro q. destruct va as [[a g]|].
      - destruct O as (v & -> & Hv & _). cbn [bhead_text]. rewrite Hv.
        assert (N : ~ has 10 ("eature " ++ fv_name v ++ " Root ")).
        { rewrite !has_app. intros [H|[H|H]].
          - cbn in H. repeat (destruct H as [H|H]; [discriminate|]). exact H.
          - exact (@fnames _ (nth_error_In _ _ Hv) H).
          - cbn in H. repeat (destruct H as [H|H]; [discriminate|]). exact H. }
        etransitivity; [|apply (@printed_line k "F"%char _ q); [discriminate|discriminate|exact N]]. f_equal. rewrite !sapp_assoc. cbn [append]. rewrite !sapp_assoc. reflexivity.
      - rewrite (V eq_refl). cbn [bhead_text].
        etransitivity; [|apply (@printed_line k "R"%char "oot " q); [discriminate|discriminate|]]; [f_equal; rewrite !sapp_assoc; reflexivity|].
        intro H. cbn in H. repeat (destruct H as [H|H]; [discriminate|]). exact H. }
    destruct lf.
    - destruct W as (dd & -> & _). cbn [boutline flat_map]. unfold bnode_lines. cbn [b_leaf b_class b_level b_value class_text]. fold k.
      rewrite !sapp_assoc. rewrite H. cbn [app].
      f_equal. assert (N : ~ has 10 ("lass value: " ++ sd dd)).
      { rewrite has_app. intros [Q|Q]; [|exact (@sd_line _ Q)]. cbn in Q. repeat (destruct Q as [Q|Q]; [discriminate|]). exact Q. }
      etransitivity; [|apply (@printed_line k "C"%char _ r); [discriminate|discriminate|exact N]]. f_equal. rewrite !sapp_assoc. reflexivity.
    - destruct W as [_ W]. rewrite (@fold_and _ (fun c => b_value c <> None /\ bwf vars classes c)) in W.
      cbn [boutline flat_map]. unfold bnode_lines at 1. cbn [b_leaf b_class b_level b_value]. fold k.
      rewrite !(sapp_assoc (stimes k tab)), !(sapp_assoc (bhead_text va vr)), H. cbn [app]. f_equal.
      rewrite !sapp_assoc. clear H.
      assert (G : forall q, printed (sconcat (map (btree_text sd) cs) ++ q) = (flat_map (bnode_lines vars sd) (List.concat (map boutline cs)) ++ printed q)%list).
      { clear - IH W fnames sd_line. induction cs as [|c cs IC]; intro q; [reflexivity|].
        inversion IH as [|? ? H1 H2]; subst. inversion W as [|? ? [W1 W2] W3]; subst.
        cbn [map sconcat fold_right List.concat]. rewrite sapp_assoc, H1; [|assumption|intro F; contradiction].
        rewrite flat_map_app, <- app_assoc. f_equal. apply (IC H2 W3). }
      rewrite G. f_equal. change (nl ++ stimes k tab ++ nl ++ r) with (stimes 0 tab ++ nl ++ (stimes k tab ++ nl ++ r)). rewrite !printed_blank. reflexivity.
  Qed.
End Lines.

(** texts of numbers and dictionaries that satisfy the hypotheses: for the examples *)
Fixpoint bits (p : positive) : string := match p with xH => "1" | xO p => String "0" (bits p) | xI p => String "1" (bits p) end.
Lemma bits_end p q r s : bits p ++ String "/" r = bits q ++ String "/" s -> p = q /\ r = s.
Proof.
  revert q r s. induction p as [p IH|p IH|]; intros [q|q|] r s E; cbn in E; try discriminate.
  - injection E as E. destruct (IH _ _ _ E) as [-> ->]. auto.
  - injection E as E. destruct p; discriminate.
  - injection E as E. destruct (IH _ _ _ E) as [-> ->]. auto.
  - injection E as E. destruct q; discriminate.
  - injection E as ->. auto.
Qed.
Definition show_z (z : Z) : string := match z with Z0 => "z" | Zpos p => "p" ++ bits p ++ "/" | Zneg p => "n" ++ bits p ++ "/" end.
Lemma show_z_end a b r s : show_z a ++ r = show_z b ++ s -> a = b /\ r = s.
Proof.
  destruct a as [|p|p], b as [|q|q]; cbn; intro E; try discriminate; injection E as E.
  - auto.
  - rewrite !sapp_assoc in E. destruct (@bits_end p q r s E) as [-> ->]. auto.
  - rewrite !sapp_assoc in E. destruct (@bits_end p q r s E) as [-> ->]. auto.
Qed.
Definition show_q (q : Qc) : string := show_z (Qnum (this q)) ++ bits (Qden (this q)) ++ "/".
Lemma show_q_end a b r s : show_q a ++ r = show_q b ++ s -> a = b /\ r = s.
Proof.
  unfold show_q. rewrite !sapp_assoc. intro E. destruct (@show_z_end _ _ _ _ E) as [E1 E2]. destruct (@bits_end _ _ _ _ E2) as [E3 ->]. split; [|reflexivity].
  apply Qc_is_canon. unfold Qeq. rewrite E1, E3. reflexivity.
Qed.
Definition show_d (d : dict Z Qc) : string := sconcat (map (fun kw => String "," (show_z (fst kw) ++ show_q (snd kw))) d).
Lemma show_z_inj a b : show_z a = show_z b -> a = b.
Proof. intro E. destruct (@show_z_end a b "" ""); [rewrite E; reflexivity|assumption]. Qed.
Lemma show_q_inj a b : show_q a = show_q b -> a = b.
Proof. intro E. destruct (@show_q_end a b "" ""); [rewrite E; reflexivity|assumption]. Qed.
Lemma show_d_inj d e : show_d d = show_d e -> d = e.
Proof.
  revert e. unfold show_d. induction d as [|[k w] d IH]; intros [|[k' w'] e] E; try discriminate; [reflexivity|]. cbn [map sconcat fold_right fst snd append] in E.
  injection E as E. rewrite !sapp_assoc in E. destruct (@show_z_end _ _ _ _ E) as [-> E2]. destruct (@show_q_end _ _ _ _ E2) as [-> E3]. rewrite (IH e E3). reflexivity.
Qed.
(** tab, newline, blank *)
Definition gap (n : nat) : Prop := n = 9%nat \/ n = 10%nat \/ n = 32%nat.
Lemma bits_free n p : gap n -> ~ has n (bits p).
Proof. intro N. induction p as [p IH|p IH|]; cbn [bits]; rewrite has_cons; (intros [H|H]; [destruct N as [->|[-> | ->]]; discriminate|]); [contradiction|contradiction|destruct H]. Qed.
Lemma char_free n c : gap n -> c <> "009"%char -> c <> "010"%char -> c <> " "%char -> ~ has n (String c "").
Proof. intros N A B C. rewrite has_cons. intros [H|[]]. destruct N as [->|[-> | ->]]; contradiction. Qed.
Lemma show_z_free n z : gap n -> ~ has n (show_z z).
Proof.
  intro N. destruct z as [|p|p]; cbn [show_z]; rewrite ?has_app; [apply char_free; [assumption|discriminate|discriminate|discriminate]| |];
  (intros [H|[H|H]]; [revert H; apply char_free; [assumption|discriminate|discriminate|discriminate]|exact (@bits_free _ _ N H)|revert H; apply char_free; [assumption|discriminate|discriminate|discriminate]]).
Qed.
Lemma show_q_free n q : gap n -> ~ has n (show_q q).
Proof.
  intro N. unfold show_q. rewrite !has_app. intros [H|[H|H]]; [exact (@show_z_free _ _ N H)|exact (@bits_free _ _ N H)|]. revert H. apply char_free; [assumption|discriminate|discriminate|discriminate].
Qed.
Lemma show_d_free n d : gap n -> ~ has n (show_d d).
Proof.
  intro N. unfold show_d. induction d as [|[k w] d IH]; [intros []|]. cbn [map sconcat fold_right fst snd]. rewrite has_app, has_cons, has_app. intros [[H|[H|H]]|H].
  - destruct N as [->|[-> | ->]]; discriminate.
  - exact (@show_z_free _ _ N H).
  - exact (@show_q_free _ _ N H).
  - exact (IH H).
Qed.
