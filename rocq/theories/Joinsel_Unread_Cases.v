(** C248: examples. *)
From Verif Require Import Base PyVal Select_Model Select_Spec Select_Proofs Select_Props Joins_Syntax Joins_Spec Joins_Model Joins_Proofs Joins_Accept Joins_Props
  Whole_Cases Joinsel_Syntax Joinsel_Spec Joinsel_Model Joinsel_Proofs Joinsel_Props Joinsel_Cases Joinsel_Unread.
Open Scope Z_scope.

(** SELECT a.id AS i FROM a LEFT JOIN b ON b.id = a.id WHERE a.x < 7 ORDER BY a.id DESC LIMIT 2 *)
Definition st_unread := JSelect (Query [ta] [Join tb SLeft KNone [eq_ab]] [ACmp CLt (cc ta x_) (kk 7)]) [item ij ta id_] desc_id (Some 2) None.
Example unread_applies : exists l, run1 three st_unread = Some (Ok l) /\ answers icmp leq0 ta three st_unread l.
Proof.
  apply (unread_left_select icmp leq0 three ta icmp_null icmp_sym leq0_total 10 true [ACmp CLt (cc ta x_) (kk 7)] [item ij ta id_] desc_id (Some 2) None [] [Join tb SLeft KNone [eq_ab]]).
  - discriminate.
  - apply one_ab.
  - intros j [<-|[]]. split; reflexivity.
  - intros j [<-|[]]. split; [|split].
    + intros n o c [E|[]] I. injection E as <- <-. destruct I as [<-|[]]. discriminate.
    + intros a c [<-|[]] I. destruct I as [<-|[]]. discriminate.
    + intros c b [E|[]]. injection E as <- _. discriminate.
  - intros j e [<-|[]]. unfold matches, alltrue. cbn [jtab jon]. change (three tb) with [r2 1 10; r2 2 20]. cbn [map filter forallb].
    unfold atrue, eq_ab. cbn [oval cc]. unfold cval. cbn [ctab assoc]. change (text_eqb tb tb) with true. change (text_eqb ta tb) with false. cbv iota.
    destruct (match assoc ta e with Some (Some r) => rget r (cname (Col (Some ta) id_)) | _ => VNone end) as [| |z| | | | |]; cbn; try lia.
    destruct z as [|[q|q|]|q]; cbn; try lia; destruct q; cbn; lia.
  - intros x [].
  - split; [intros n o c x [E|[]] I Ec; injection E as <- <-; destruct I as [<-|[]]; cbn [ctab] in Ec; left; congruence|].
    intros a c x [<-|[]] I Ec. destruct I as [<-|[]]. cbn [ctab] in Ec. left. congruence.
  - left. intros c b [E|[]]. injection E as <- _. reflexivity.
  - intros a [<-|[]]. exact Logic.I.
  - split; [discriminate|]. split; [intros c b [E|[]]; injection E as <- _; discriminate|]. intros c b o [E|[]] J. injection E as <- _. destruct J as [E|[]]. discriminate E.
  - intros n E. injection E as <-. lia.
  - right. right. right. intros j e [].
Qed.
Example unread_result : exists l, run1 three st_unread = Some (Ok l) /\ length l = 2%nat.
Proof. eexists. split; [reflexivity|reflexivity]. Qed.
