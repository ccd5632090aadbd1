(** * DemoSetupSpec: vocabulary for the files and command lines of the demo programs. *)

From Coq Require Import Ascii String NArith ZArith.
From Verif Require Import IOModel DemoSetup.
Local Open Scope nat_scope.

(** ** Numbers in a text *)
(** A decimal number: an optional sign, digits with an optional point, an optional exponent. *)
Definition sign_text (neg : bool) (l : bytes) : Prop := if neg then l = str "-" else l = [] \/ l = str "+".
Definition all_digits (l : bytes) : Prop := Forall (fun c => is_digit c = true) l.
Definition numeral (word : bytes) (neg : bool) (m : N) (e : Z) : Prop :=
  exists sgn ip fp ex x,
    word = sgn ++ ip ++ fp ++ ex /\ sign_text neg sgn /\ all_digits ip /\
    (exists f, (fp = f /\ f = [] \/ fp = str "." ++ f) /\ all_digits f /\ ip ++ f <> [] /\ m = number (ip ++ f) /\ e = (- Z.of_nat (length f) + x)%Z) /\
    (ex = [] /\ x = 0%Z \/
     exists c s k d, ex = c ++ s ++ d /\ (c = str "e" \/ c = str "E") /\ sign_text k s /\ all_digits d /\ d <> [] /\ x = (if k then - Z.of_N (number d) else Z.of_N (number d))%Z).

(** [text] is [words] separated by white space, with optional white space before and behind. *)
Definition blank (l : bytes) : Prop := Forall (fun c => is_space c = true) l.
Inductive spaced : list bytes -> bytes -> Prop :=
| sp_end w : blank w -> spaced [] w
| sp_last w x : blank w -> spaced [x] (w ++ x)
| sp_more w x s l t : blank w -> is_space s = true -> spaced l t -> spaced (x :: l) (w ++ x ++ s :: t).

Section Values.
  Context {T : Type} {TT : Text T}.
  (** The word stands for a number in range, with value [v]. *)
  Definition stands_for (word : bytes) (v : T) : Prop := exists neg m e, numeral word neg m e /\ read neg m e = (v, true).
  (** The text consists of the numbers [vs]. *)
  Definition has_numbers (text : bytes) (vs : list T) : Prop := exists words, spaced words text /\ Forall2 stands_for words vs.
End Values.

(** ** Command lines *)
Inductive Option := Temperature (v : bytes) | GravityMult (v : bytes) | Centre (v : bytes) | Spring (v : bytes) | Interval (v : bytes)
  | SampleInterval (v : bytes) | Samples (v : bytes) | Restart (v : bytes) | BoundarySample.
(** The two spellings of an option. *)
Definition short_name (o : Option) : string :=
  match o with Temperature _ => "-t" | GravityMult _ => "-g" | Centre _ => "-c" | Spring _ => "-s" | Interval _ => "-ui"
  | SampleInterval _ => "-si" | Samples _ => "-n" | Restart _ => "-r" | BoundarySample => "-b" end.
Definition long_name (o : Option) : string :=
  match o with Temperature _ => "--temperature" | GravityMult _ => "--gravity" | Centre _ => "--centre" | Spring _ => "--spring" | Interval _ => "--unmbrella-interval"
  | SampleInterval _ => "--sample-interval" | Samples _ => "--number-samples" | Restart _ => "--restart" | BoundarySample => "--boundary-sample" end.
Definition operand (o : Option) : list bytes :=
  match o with Temperature v | GravityMult v | Centre v | Spring v | Interval v | SampleInterval v | Samples v | Restart v => [v] | BoundarySample => [] end.
Definition named (o : Option) (w : bytes) : Prop := w = str (short_name o) \/ w = str (long_name o).
(** The words of a command line that gives these options one after the other. *)
Inductive spelled : list Option -> list bytes -> Prop :=
| spell_none : spelled [] []
| spell_one o w os ws : named o w -> spelled os ws -> spelled (o :: os) (w :: operand o ++ ws).
(** The value given last for the parameter that [pick] recognises, or else [v]. *)
Definition last_given {A} (pick : Option -> option A) (os : list Option) (v : A) : A :=
  fold_left (fun v o => match pick o with Some x => x | None => v end) os v.
(** The buffer for the name of the restart file has room for 99 characters. *)
Definition short_enough (o : Option) : Prop := match o with Restart v => length v < 100 | _ => True end.
Section Given.
  Context {T : Type} (atof : bytes -> T) (atoi : bytes -> Z).
  (** The parameters after a command line with options [os], if they were [a] before. *)
  Definition given (os : list Option) (a : Args T) : Args T :=
    let real pick := last_given (fun o => option_map atof (pick o)) os in
    let int pick := last_given (fun o => option_map (fun v => u32 (atoi v)) (pick o)) os in
    mkArgs (real (fun o => match o with Temperature v => Some v | _ => None end) (a_temperature a))
      (real (fun o => match o with GravityMult v => Some v | _ => None end) (a_gravityMult a))
      (real (fun o => match o with Centre v => Some v | _ => None end) (a_centre a))
      (real (fun o => match o with Spring v => Some v | _ => None end) (a_spring a))
      (real (fun o => match o with Interval v => Some v | _ => None end) (a_umbrellaInterval a))
      (int (fun o => match o with SampleInterval v => Some v | _ => None end) (a_sampleInterval a))
      (int (fun o => match o with Samples v => Some v | _ => None end) (a_nSamples a))
      (last_given (fun o => match o with Restart v => Some (Some v) | _ => None end) os (a_restart a))
      (last_given (fun o => match o with BoundarySample => Some true | _ => None end) os (a_boundary a)).
End Given.
