(** Validation of the model against the repository's own expected outputs:
    /repo/example/*.seiren and the .svg files beside them, and the two SVG texts
    of /repo/tests/integration_test.rs.  These are tests of the transcription, not
    proofs of properties. *)
From Coq Require Import String List NArith.
From Verif Require Import Base F32 Geometry Mir Erd Parser Route Layout Svg Render Cli.
Import ListNotations.
Local Open Scope string_scope.

Definition plain (s : str) : str := s.

Definition posts_seiren : string :=
"// Define an ERD module that is named ""posts""
erd posts {
  users {
    id         int PK
    `uuid`     uuid
    email      text
    `text`     text
    about_html text
    created_at timestamp
  }
  
  posts {
    id         int PK
    `uuid`     uuid
    title      text
    content    text
    created_at timestamp
    created_by int FK
  }

  // Edges
  users.id o--o posts.created_by
}".

Definition posts_svg : string :=
"<svg viewBox=""0, 0, 1160, 345"" xmlns=""http://www.w3.org/2000/svg"">
<rect fill=""#1C1C1C"" height=""100%"" width=""100%""/>
<defs>
<clipPath id=""record-clip-path-0"">
<rect height=""245"" rx=""6"" ry=""6"" width=""300"" x=""50"" y=""50""/>
</clipPath>
<clipPath id=""record-clip-path-1"">
<rect height=""245"" rx=""6"" ry=""6"" width=""300"" x=""430"" y=""50""/>
</clipPath>
</defs>
<rect fill=""#212121"" height=""245"" rx=""6"" ry=""6"" stroke=""#494949"" width=""300"" x=""50"" y=""50""/>
<rect clip-path=""url(#record-clip-path-0)"" fill=""#494949"" height=""35"" width=""300"" x=""50"" y=""50""/>
<text dominant-baseline=""middle"" fill=""white"" font-family=""Monaco,Lucida Console,monospace"" font-weight=""bold"" text-anchor=""start"" x=""62"" y=""67.5"">
users
</text>
<line stroke=""#494949"" stroke-width=""1"" x1=""50"" x2=""350"" y1=""85"" y2=""85""/>
<text dominant-baseline=""middle"" fill=""white"" font-family=""Courier New,monospace"" font-weight=""lighter"" text-anchor=""start"" x=""62"" y=""102.5"">
id
</text>
<text dominant-baseline=""middle"" fill=""#ECC700"" font-family=""Courier New,monospace"" font-size=""small"" font-weight=""lighter"" text-anchor=""end"" x=""290"" y=""102.5"">
int
</text>
<circle cx=""326.5"" cy=""102.5"" fill=""#373737"" r=""11.5""/>
<text dominant-baseline=""middle"" fill=""white"" font-family=""Trebuchet MS,sans-serif"" font-size=""xx-small"" text-anchor=""middle"" x=""326.5"" y=""102.5"">
PK
</text>
<line stroke=""#494949"" stroke-width=""1"" x1=""50"" x2=""350"" y1=""120"" y2=""120""/>
<text dominant-baseline=""middle"" fill=""white"" font-family=""Courier New,monospace"" font-weight=""lighter"" text-anchor=""start"" x=""62"" y=""137.5"">
uuid
</text>
<text dominant-baseline=""middle"" fill=""#ECC700"" font-family=""Courier New,monospace"" font-size=""small"" font-weight=""lighter"" text-anchor=""end"" x=""290"" y=""137.5"">
uuid
</text>
<line stroke=""#494949"" stroke-width=""1"" x1=""50"" x2=""350"" y1=""155"" y2=""155""/>
<text dominant-baseline=""middle"" fill=""white"" font-family=""Courier New,monospace"" font-weight=""lighter"" text-anchor=""start"" x=""62"" y=""172.5"">
email
</text>
<text dominant-baseline=""middle"" fill=""#D66905"" font-family=""Courier New,monospace"" font-size=""small"" font-weight=""lighter"" text-anchor=""end"" x=""290"" y=""172.5"">
text
</text>
<line stroke=""#494949"" stroke-width=""1"" x1=""50"" x2=""350"" y1=""190"" y2=""190""/>
<text dominant-baseline=""middle"" fill=""white"" font-family=""Courier New,monospace"" font-weight=""lighter"" text-anchor=""start"" x=""62"" y=""207.5"">
text
</text>
<text dominant-baseline=""middle"" fill=""#D66905"" font-family=""Courier New,monospace"" font-size=""small"" font-weight=""lighter"" text-anchor=""end"" x=""290"" y=""207.5"">
text
</text>
<line stroke=""#494949"" stroke-width=""1"" x1=""50"" x2=""350"" y1=""225"" y2=""225""/>
<text dominant-baseline=""middle"" fill=""white"" font-family=""Courier New,monospace"" font-weight=""lighter"" text-anchor=""start"" x=""62"" y=""242.5"">
about_html
</text>
<text dominant-baseline=""middle"" fill=""#D66905"" font-family=""Courier New,monospace"" font-size=""small"" font-weight=""lighter"" text-anchor=""end"" x=""290"" y=""242.5"">
text
</text>
<line stroke=""#494949"" stroke-width=""1"" x1=""50"" x2=""350"" y1=""260"" y2=""260""/>
<text dominant-baseline=""middle"" fill=""white"" font-family=""Courier New,monospace"" font-weight=""lighter"" text-anchor=""start"" x=""62"" y=""277.5"">
created_at
</text>
<text dominant-baseline=""middle"" fill=""#06B697"" font-family=""Courier New,monospace"" font-size=""small"" font-weight=""lighter"" text-anchor=""end"" x=""290"" y=""277.5"">
timestamp
</text>
<rect fill=""#212121"" height=""245"" rx=""6"" ry=""6"" stroke=""#494949"" width=""300"" x=""430"" y=""50""/>
<rect clip-path=""url(#record-clip-path-1)"" fill=""#494949"" height=""35"" width=""300"" x=""430"" y=""50""/>
<text dominant-baseline=""middle"" fill=""white"" font-family=""Monaco,Lucida Console,monospace"" font-weight=""bold"" text-anchor=""start"" x=""442"" y=""67.5"">
posts
</text>
<line stroke=""#494949"" stroke-width=""1"" x1=""430"" x2=""730"" y1=""85"" y2=""85""/>
<text dominant-baseline=""middle"" fill=""white"" font-family=""Courier New,monospace"" font-weight=""lighter"" text-anchor=""start"" x=""442"" y=""102.5"">
id
</text>
<text dominant-baseline=""middle"" fill=""#ECC700"" font-family=""Courier New,monospace"" font-size=""small"" font-weight=""lighter"" text-anchor=""end"" x=""670"" y=""102.5"">
int
</text>
<circle cx=""706.5"" cy=""102.5"" fill=""#373737"" r=""11.5""/>
<text dominant-baseline=""middle"" fill=""white"" font-family=""Trebuchet MS,sans-serif"" font-size=""xx-small"" text-anchor=""middle"" x=""706.5"" y=""102.5"">
PK
</text>
<line stroke=""#494949"" stroke-width=""1"" x1=""430"" x2=""730"" y1=""120"" y2=""120""/>
<text dominant-baseline=""middle"" fill=""white"" font-family=""Courier New,monospace"" font-weight=""lighter"" text-anchor=""start"" x=""442"" y=""137.5"">
uuid
</text>
<text dominant-baseline=""middle"" fill=""#ECC700"" font-family=""Courier New,monospace"" font-size=""small"" font-weight=""lighter"" text-anchor=""end"" x=""670"" y=""137.5"">
uuid
</text>
<line stroke=""#494949"" stroke-width=""1"" x1=""430"" x2=""730"" y1=""155"" y2=""155""/>
<text dominant-baseline=""middle"" fill=""white"" font-family=""Courier New,monospace"" font-weight=""lighter"" text-anchor=""start"" x=""442"" y=""172.5"">
title
</text>
<text dominant-baseline=""middle"" fill=""#D66905"" font-family=""Courier New,monospace"" font-size=""small"" font-weight=""lighter"" text-anchor=""end"" x=""670"" y=""172.5"">
text
</text>
<line stroke=""#494949"" stroke-width=""1"" x1=""430"" x2=""730"" y1=""190"" y2=""190""/>
<text dominant-baseline=""middle"" fill=""white"" font-family=""Courier New,monospace"" font-weight=""lighter"" text-anchor=""start"" x=""442"" y=""207.5"">
content
</text>
<text dominant-baseline=""middle"" fill=""#D66905"" font-family=""Courier New,monospace"" font-size=""small"" font-weight=""lighter"" text-anchor=""end"" x=""670"" y=""207.5"">
text
</text>
<line stroke=""#494949"" stroke-width=""1"" x1=""430"" x2=""730"" y1=""225"" y2=""225""/>
<text dominant-baseline=""middle"" fill=""white"" font-family=""Courier New,monospace"" font-weight=""lighter"" text-anchor=""start"" x=""442"" y=""242.5"">
created_at
</text>
<text dominant-baseline=""middle"" fill=""#06B697"" font-family=""Courier New,monospace"" font-size=""small"" font-weight=""lighter"" text-anchor=""end"" x=""670"" y=""242.5"">
timestamp
</text>
<line stroke=""#494949"" stroke-width=""1"" x1=""430"" x2=""730"" y1=""260"" y2=""260""/>
<text dominant-baseline=""middle"" fill=""white"" font-family=""Courier New,monospace"" font-weight=""lighter"" text-anchor=""start"" x=""442"" y=""277.5"">
created_by
</text>
<text dominant-baseline=""middle"" fill=""#ECC700"" font-family=""Courier New,monospace"" font-size=""small"" font-weight=""lighter"" text-anchor=""end"" x=""670"" y=""277.5"">
int
</text>
<circle cx=""706.5"" cy=""277.5"" fill=""#202937"" r=""11.5""/>
<text dominant-baseline=""middle"" fill=""#1170FB"" font-family=""Trebuchet MS,sans-serif"" font-size=""xx-small"" text-anchor=""middle"" x=""706.5"" y=""277.5"">
FK
</text>
<path d=""M350 102.5 L384 102.5 Q390 102.5 390 108.5 L390 271.5 Q390 277.5 396 277.5 L430 277.5"" fill=""transparent"" stroke=""#888888"" stroke-width=""1.5""/>
<circle cx=""350"" cy=""102.5"" fill=""#1C1C1C"" r=""4"" stroke=""#888888"" stroke-width=""1.5""/>
<circle cx=""430"" cy=""277.5"" fill=""#1C1C1C"" r=""4"" stroke=""#888888"" stroke-width=""1.5""/>
</svg>".

Example golden_posts :
  main plain (lit posts_seiren) = mkRun (lit posts_svg) 0 (Ret tt).
Proof. vm_compute. reflexivity. Qed.

Definition comments_seiren : string :=
"erd posts {
  users {
    id         int PK
    `uuid`     uuid
    email      text
    `text`     text
    about_html text
    created_at timestamp
  }
  
  posts {
    id         int PK
    `uuid`     uuid
    title      text
    content    text
    created_at timestamp
    created_by int FK
  }

  comments {
    id         int PK
    content    text
    created_at timestamp
    post_id    int FK
    created_by int FK    
  }

  // Edges
  posts.created_by o--o users.id
  comments.post_id o--o posts.id
  comments.created_by o--o users.id
}".

Definition comments_svg : string :=
"<svg viewBox=""0, 0, 1160, 345"" xmlns=""http://www.w3.org/2000/svg"">
<rect fill=""#1C1C1C"" height=""100%"" width=""100%""/>
<defs>
<clipPath id=""record-clip-path-0"">
<rect height=""245"" rx=""6"" ry=""6"" width=""300"" x=""50"" y=""50""/>
</clipPath>
<clipPath id=""record-clip-path-1"">
<rect height=""245"" rx=""6"" ry=""6"" width=""300"" x=""430"" y=""50""/>
</clipPath>
<clipPath id=""record-clip-path-2"">
<rect height=""210"" rx=""6"" ry=""6"" width=""300"" x=""810"" y=""50""/>
</clipPath>
</defs>
<rect fill=""#212121"" height=""245"" rx=""6"" ry=""6"" stroke=""#494949"" width=""300"" x=""50"" y=""50""/>
<rect clip-path=""url(#record-clip-path-0)"" fill=""#494949"" height=""35"" width=""300"" x=""50"" y=""50""/>
<text dominant-baseline=""middle"" fill=""white"" font-family=""Monaco,Lucida Console,monospace"" font-weight=""bold"" text-anchor=""start"" x=""62"" y=""67.5"">
users
</text>
<line stroke=""#494949"" stroke-width=""1"" x1=""50"" x2=""350"" y1=""85"" y2=""85""/>
<text dominant-baseline=""middle"" fill=""white"" font-family=""Courier New,monospace"" font-weight=""lighter"" text-anchor=""start"" x=""62"" y=""102.5"">
id
</text>
<text dominant-baseline=""middle"" fill=""#ECC700"" font-family=""Courier New,monospace"" font-size=""small"" font-weight=""lighter"" text-anchor=""end"" x=""290"" y=""102.5"">
int
</text>
<circle cx=""326.5"" cy=""102.5"" fill=""#373737"" r=""11.5""/>
<text dominant-baseline=""middle"" fill=""white"" font-family=""Trebuchet MS,sans-serif"" font-size=""xx-small"" text-anchor=""middle"" x=""326.5"" y=""102.5"">
PK
</text>
<line stroke=""#494949"" stroke-width=""1"" x1=""50"" x2=""350"" y1=""120"" y2=""120""/>
<text dominant-baseline=""middle"" fill=""white"" font-family=""Courier New,monospace"" font-weight=""lighter"" text-anchor=""start"" x=""62"" y=""137.5"">
uuid
</text>
<text dominant-baseline=""middle"" fill=""#ECC700"" font-family=""Courier New,monospace"" font-size=""small"" font-weight=""lighter"" text-anchor=""end"" x=""290"" y=""137.5"">
uuid
</text>
<line stroke=""#494949"" stroke-width=""1"" x1=""50"" x2=""350"" y1=""155"" y2=""155""/>
<text dominant-baseline=""middle"" fill=""white"" font-family=""Courier New,monospace"" font-weight=""lighter"" text-anchor=""start"" x=""62"" y=""172.5"">
email
</text>
<text dominant-baseline=""middle"" fill=""#D66905"" font-family=""Courier New,monospace"" font-size=""small"" font-weight=""lighter"" text-anchor=""end"" x=""290"" y=""172.5"">
text
</text>
<line stroke=""#494949"" stroke-width=""1"" x1=""50"" x2=""350"" y1=""190"" y2=""190""/>
<text dominant-baseline=""middle"" fill=""white"" font-family=""Courier New,monospace"" font-weight=""lighter"" text-anchor=""start"" x=""62"" y=""207.5"">
text
</text>
<text dominant-baseline=""middle"" fill=""#D66905"" font-family=""Courier New,monospace"" font-size=""small"" font-weight=""lighter"" text-anchor=""end"" x=""290"" y=""207.5"">
text
</text>
<line stroke=""#494949"" stroke-width=""1"" x1=""50"" x2=""350"" y1=""225"" y2=""225""/>
<text dominant-baseline=""middle"" fill=""white"" font-family=""Courier New,monospace"" font-weight=""lighter"" text-anchor=""start"" x=""62"" y=""242.5"">
about_html
</text>
<text dominant-baseline=""middle"" fill=""#D66905"" font-family=""Courier New,monospace"" font-size=""small"" font-weight=""lighter"" text-anchor=""end"" x=""290"" y=""242.5"">
text
</text>
<line stroke=""#494949"" stroke-width=""1"" x1=""50"" x2=""350"" y1=""260"" y2=""260""/>
<text dominant-baseline=""middle"" fill=""white"" font-family=""Courier New,monospace"" font-weight=""lighter"" text-anchor=""start"" x=""62"" y=""277.5"">
created_at
</text>
<text dominant-baseline=""middle"" fill=""#06B697"" font-family=""Courier New,monospace"" font-size=""small"" font-weight=""lighter"" text-anchor=""end"" x=""290"" y=""277.5"">
timestamp
</text>
<rect fill=""#212121"" height=""245"" rx=""6"" ry=""6"" stroke=""#494949"" width=""300"" x=""430"" y=""50""/>
<rect clip-path=""url(#record-clip-path-1)"" fill=""#494949"" height=""35"" width=""300"" x=""430"" y=""50""/>
<text dominant-baseline=""middle"" fill=""white"" font-family=""Monaco,Lucida Console,monospace"" font-weight=""bold"" text-anchor=""start"" x=""442"" y=""67.5"">
posts
</text>
<line stroke=""#494949"" stroke-width=""1"" x1=""430"" x2=""730"" y1=""85"" y2=""85""/>
<text dominant-baseline=""middle"" fill=""white"" font-family=""Courier New,monospace"" font-weight=""lighter"" text-anchor=""start"" x=""442"" y=""102.5"">
id
</text>
<text dominant-baseline=""middle"" fill=""#ECC700"" font-family=""Courier New,monospace"" font-size=""small"" font-weight=""lighter"" text-anchor=""end"" x=""670"" y=""102.5"">
int
</text>
<circle cx=""706.5"" cy=""102.5"" fill=""#373737"" r=""11.5""/>
<text dominant-baseline=""middle"" fill=""white"" font-family=""Trebuchet MS,sans-serif"" font-size=""xx-small"" text-anchor=""middle"" x=""706.5"" y=""102.5"">
PK
</text>
<line stroke=""#494949"" stroke-width=""1"" x1=""430"" x2=""730"" y1=""120"" y2=""120""/>
<text dominant-baseline=""middle"" fill=""white"" font-family=""Courier New,monospace"" font-weight=""lighter"" text-anchor=""start"" x=""442"" y=""137.5"">
uuid
</text>
<text dominant-baseline=""middle"" fill=""#ECC700"" font-family=""Courier New,monospace"" font-size=""small"" font-weight=""lighter"" text-anchor=""end"" x=""670"" y=""137.5"">
uuid
</text>
<line stroke=""#494949"" stroke-width=""1"" x1=""430"" x2=""730"" y1=""155"" y2=""155""/>
<text dominant-baseline=""middle"" fill=""white"" font-family=""Courier New,monospace"" font-weight=""lighter"" text-anchor=""start"" x=""442"" y=""172.5"">
title
</text>
<text dominant-baseline=""middle"" fill=""#D66905"" font-family=""Courier New,monospace"" font-size=""small"" font-weight=""lighter"" text-anchor=""end"" x=""670"" y=""172.5"">
text
</text>
<line stroke=""#494949"" stroke-width=""1"" x1=""430"" x2=""730"" y1=""190"" y2=""190""/>
<text dominant-baseline=""middle"" fill=""white"" font-family=""Courier New,monospace"" font-weight=""lighter"" text-anchor=""start"" x=""442"" y=""207.5"">
content
</text>
<text dominant-baseline=""middle"" fill=""#D66905"" font-family=""Courier New,monospace"" font-size=""small"" font-weight=""lighter"" text-anchor=""end"" x=""670"" y=""207.5"">
text
</text>
<line stroke=""#494949"" stroke-width=""1"" x1=""430"" x2=""730"" y1=""225"" y2=""225""/>
<text dominant-baseline=""middle"" fill=""white"" font-family=""Courier New,monospace"" font-weight=""lighter"" text-anchor=""start"" x=""442"" y=""242.5"">
created_at
</text>
<text dominant-baseline=""middle"" fill=""#06B697"" font-family=""Courier New,monospace"" font-size=""small"" font-weight=""lighter"" text-anchor=""end"" x=""670"" y=""242.5"">
timestamp
</text>
<line stroke=""#494949"" stroke-width=""1"" x1=""430"" x2=""730"" y1=""260"" y2=""260""/>
<text dominant-baseline=""middle"" fill=""white"" font-family=""Courier New,monospace"" font-weight=""lighter"" text-anchor=""start"" x=""442"" y=""277.5"">
created_by
</text>
<text dominant-baseline=""middle"" fill=""#ECC700"" font-family=""Courier New,monospace"" font-size=""small"" font-weight=""lighter"" text-anchor=""end"" x=""670"" y=""277.5"">
int
</text>
<circle cx=""706.5"" cy=""277.5"" fill=""#202937"" r=""11.5""/>
<text dominant-baseline=""middle"" fill=""#1170FB"" font-family=""Trebuchet MS,sans-serif"" font-size=""xx-small"" text-anchor=""middle"" x=""706.5"" y=""277.5"">
FK
</text>
<rect fill=""#212121"" height=""210"" rx=""6"" ry=""6"" stroke=""#494949"" width=""300"" x=""810"" y=""50""/>
<rect clip-path=""url(#record-clip-path-2)"" fill=""#494949"" height=""35"" width=""300"" x=""810"" y=""50""/>
<text dominant-baseline=""middle"" fill=""white"" font-family=""Monaco,Lucida Console,monospace"" font-weight=""bold"" text-anchor=""start"" x=""822"" y=""67.5"">
comments
</text>
<line stroke=""#494949"" stroke-width=""1"" x1=""810"" x2=""1110"" y1=""85"" y2=""85""/>
<text dominant-baseline=""middle"" fill=""white"" font-family=""Courier New,monospace"" font-weight=""lighter"" text-anchor=""start"" x=""822"" y=""102.5"">
id
</text>
<text dominant-baseline=""middle"" fill=""#ECC700"" font-family=""Courier New,monospace"" font-size=""small"" font-weight=""lighter"" text-anchor=""end"" x=""1050"" y=""102.5"">
int
</text>
<circle cx=""1086.5"" cy=""102.5"" fill=""#373737"" r=""11.5""/>
<text dominant-baseline=""middle"" fill=""white"" font-family=""Trebuchet MS,sans-serif"" font-size=""xx-small"" text-anchor=""middle"" x=""1086.5"" y=""102.5"">
PK
</text>
<line stroke=""#494949"" stroke-width=""1"" x1=""810"" x2=""1110"" y1=""120"" y2=""120""/>
<text dominant-baseline=""middle"" fill=""white"" font-family=""Courier New,monospace"" font-weight=""lighter"" text-anchor=""start"" x=""822"" y=""137.5"">
content
</text>
<text dominant-baseline=""middle"" fill=""#D66905"" font-family=""Courier New,monospace"" font-size=""small"" font-weight=""lighter"" text-anchor=""end"" x=""1050"" y=""137.5"">
text
</text>
<line stroke=""#494949"" stroke-width=""1"" x1=""810"" x2=""1110"" y1=""155"" y2=""155""/>
<text dominant-baseline=""middle"" fill=""white"" font-family=""Courier New,monospace"" font-weight=""lighter"" text-anchor=""start"" x=""822"" y=""172.5"">
created_at
</text>
<text dominant-baseline=""middle"" fill=""#06B697"" font-family=""Courier New,monospace"" font-size=""small"" font-weight=""lighter"" text-anchor=""end"" x=""1050"" y=""172.5"">
timestamp
</text>
<line stroke=""#494949"" stroke-width=""1"" x1=""810"" x2=""1110"" y1=""190"" y2=""190""/>
<text dominant-baseline=""middle"" fill=""white"" font-family=""Courier New,monospace"" font-weight=""lighter"" text-anchor=""start"" x=""822"" y=""207.5"">
post_id
</text>
<text dominant-baseline=""middle"" fill=""#ECC700"" font-family=""Courier New,monospace"" font-size=""small"" font-weight=""lighter"" text-anchor=""end"" x=""1050"" y=""207.5"">
int
</text>
<circle cx=""1086.5"" cy=""207.5"" fill=""#202937"" r=""11.5""/>
<text dominant-baseline=""middle"" fill=""#1170FB"" font-family=""Trebuchet MS,sans-serif"" font-size=""xx-small"" text-anchor=""middle"" x=""1086.5"" y=""207.5"">
FK
</text>
<line stroke=""#494949"" stroke-width=""1"" x1=""810"" x2=""1110"" y1=""225"" y2=""225""/>
<text dominant-baseline=""middle"" fill=""white"" font-family=""Courier New,monospace"" font-weight=""lighter"" text-anchor=""start"" x=""822"" y=""242.5"">
created_by
</text>
<text dominant-baseline=""middle"" fill=""#ECC700"" font-family=""Courier New,monospace"" font-size=""small"" font-weight=""lighter"" text-anchor=""end"" x=""1050"" y=""242.5"">
int
</text>
<circle cx=""1086.5"" cy=""242.5"" fill=""#202937"" r=""11.5""/>
<text dominant-baseline=""middle"" fill=""#1170FB"" font-family=""Trebuchet MS,sans-serif"" font-size=""xx-small"" text-anchor=""middle"" x=""1086.5"" y=""242.5"">
FK
</text>
<path d=""M430 277.5 L396 277.5 Q390 277.5 390 271.5 L390 108.5 Q390 102.5 384 102.5 L350 102.5"" fill=""transparent"" stroke=""#888888"" stroke-width=""1.5""/>
<circle cx=""430"" cy=""277.5"" fill=""#1C1C1C"" r=""4"" stroke=""#888888"" stroke-width=""1.5""/>
<circle cx=""350"" cy=""102.5"" fill=""#1C1C1C"" r=""4"" stroke=""#888888"" stroke-width=""1.5""/>
<path d=""M810 207.5 L776 207.5 Q770 207.5 770 201.5 L770 108.5 Q770 102.5 764 102.5 L730 102.5"" fill=""transparent"" stroke=""#888888"" stroke-width=""1.5""/>
<circle cx=""810"" cy=""207.5"" fill=""#1C1C1C"" r=""4"" stroke=""#888888"" stroke-width=""1.5""/>
<circle cx=""730"" cy=""102.5"" fill=""#1C1C1C"" r=""4"" stroke=""#888888"" stroke-width=""1.5""/>
<path d=""M810 242.5 L776 242.5 Q770 242.5 770 248.5 L770 277.5 L770 300 L770 329 Q770 335 764 335 L580 335 L396 335 Q390 335 390 329 L390 277.5 L390 108.5 Q390 102.5 384 102.5 L350 102.5"" fill=""transparent"" stroke=""#888888"" stroke-width=""1.5""/>
<circle cx=""810"" cy=""242.5"" fill=""#1C1C1C"" r=""4"" stroke=""#888888"" stroke-width=""1.5""/>
<circle cx=""350"" cy=""102.5"" fill=""#1C1C1C"" r=""4"" stroke=""#888888"" stroke-width=""1.5""/>
</svg>".

Example golden_comments :
  main plain (lit comments_seiren) = mkRun (lit comments_svg) 0 (Ret tt).
Proof. vm_compute. reflexivity. Qed.

Definition tags_seiren : string :=
"erd posts {
  users {
    id         int PK
    `uuid`     uuid
    email      text
    `text`     text
    about_html text
    created_at timestamp
  }
  
  posts {
    id         int PK
    `uuid`     uuid
    title      text
    content    text
    created_at timestamp
    created_by int FK
  }

  comments {
    id         int PK
    content    text
    created_at timestamp
    post_id    int FK
    created_by int FK    
  }

  tags {
    id   int PK
    name text
  }

  post_tags {
    post_id int FK
    tag_id  int FK
  }

  // Edges
  posts.created_by o--o users.id
  comments.post_id o--o posts.id
  comments.created_by o--o users.id
  post_tags.post_id o--o posts.id
  post_tags.tag_id o--o tags.id
}".

Definition tags_svg : string :=
"<svg viewBox=""0, 0, 1160, 530"" xmlns=""http://www.w3.org/2000/svg"">
<rect fill=""#1C1C1C"" height=""100%"" width=""100%""/>
<defs>
<clipPath id=""record-clip-path-0"">
<rect height=""245"" rx=""6"" ry=""6"" width=""300"" x=""50"" y=""50""/>
</clipPath>
<clipPath id=""record-clip-path-1"">
<rect height=""245"" rx=""6"" ry=""6"" width=""300"" x=""430"" y=""50""/>
</clipPath>
<clipPath id=""record-clip-path-2"">
<rect height=""210"" rx=""6"" ry=""6"" width=""300"" x=""810"" y=""50""/>
</clipPath>
<clipPath id=""record-clip-path-3"">
<rect height=""105"" rx=""6"" ry=""6"" width=""300"" x=""50"" y=""375""/>
</clipPath>
<clipPath id=""record-clip-path-4"">
<rect height=""105"" rx=""6"" ry=""6"" width=""300"" x=""430"" y=""375""/>
</clipPath>
</defs>
<rect fill=""#212121"" height=""245"" rx=""6"" ry=""6"" stroke=""#494949"" width=""300"" x=""50"" y=""50""/>
<rect clip-path=""url(#record-clip-path-0)"" fill=""#494949"" height=""35"" width=""300"" x=""50"" y=""50""/>
<text dominant-baseline=""middle"" fill=""white"" font-family=""Monaco,Lucida Console,monospace"" font-weight=""bold"" text-anchor=""start"" x=""62"" y=""67.5"">
users
</text>
<line stroke=""#494949"" stroke-width=""1"" x1=""50"" x2=""350"" y1=""85"" y2=""85""/>
<text dominant-baseline=""middle"" fill=""white"" font-family=""Courier New,monospace"" font-weight=""lighter"" text-anchor=""start"" x=""62"" y=""102.5"">
id
</text>
<text dominant-baseline=""middle"" fill=""#ECC700"" font-family=""Courier New,monospace"" font-size=""small"" font-weight=""lighter"" text-anchor=""end"" x=""290"" y=""102.5"">
int
</text>
<circle cx=""326.5"" cy=""102.5"" fill=""#373737"" r=""11.5""/>
<text dominant-baseline=""middle"" fill=""white"" font-family=""Trebuchet MS,sans-serif"" font-size=""xx-small"" text-anchor=""middle"" x=""326.5"" y=""102.5"">
PK
</text>
<line stroke=""#494949"" stroke-width=""1"" x1=""50"" x2=""350"" y1=""120"" y2=""120""/>
<text dominant-baseline=""middle"" fill=""white"" font-family=""Courier New,monospace"" font-weight=""lighter"" text-anchor=""start"" x=""62"" y=""137.5"">
uuid
</text>
<text dominant-baseline=""middle"" fill=""#ECC700"" font-family=""Courier New,monospace"" font-size=""small"" font-weight=""lighter"" text-anchor=""end"" x=""290"" y=""137.5"">
uuid
</text>
<line stroke=""#494949"" stroke-width=""1"" x1=""50"" x2=""350"" y1=""155"" y2=""155""/>
<text dominant-baseline=""middle"" fill=""white"" font-family=""Courier New,monospace"" font-weight=""lighter"" text-anchor=""start"" x=""62"" y=""172.5"">
email
</text>
<text dominant-baseline=""middle"" fill=""#D66905"" font-family=""Courier New,monospace"" font-size=""small"" font-weight=""lighter"" text-anchor=""end"" x=""290"" y=""172.5"">
text
</text>
<line stroke=""#494949"" stroke-width=""1"" x1=""50"" x2=""350"" y1=""190"" y2=""190""/>
<text dominant-baseline=""middle"" fill=""white"" font-family=""Courier New,monospace"" font-weight=""lighter"" text-anchor=""start"" x=""62"" y=""207.5"">
text
</text>
<text dominant-baseline=""middle"" fill=""#D66905"" font-family=""Courier New,monospace"" font-size=""small"" font-weight=""lighter"" text-anchor=""end"" x=""290"" y=""207.5"">
text
</text>
<line stroke=""#494949"" stroke-width=""1"" x1=""50"" x2=""350"" y1=""225"" y2=""225""/>
<text dominant-baseline=""middle"" fill=""white"" font-family=""Courier New,monospace"" font-weight=""lighter"" text-anchor=""start"" x=""62"" y=""242.5"">
about_html
</text>
<text dominant-baseline=""middle"" fill=""#D66905"" font-family=""Courier New,monospace"" font-size=""small"" font-weight=""lighter"" text-anchor=""end"" x=""290"" y=""242.5"">
text
</text>
<line stroke=""#494949"" stroke-width=""1"" x1=""50"" x2=""350"" y1=""260"" y2=""260""/>
<text dominant-baseline=""middle"" fill=""white"" font-family=""Courier New,monospace"" font-weight=""lighter"" text-anchor=""start"" x=""62"" y=""277.5"">
created_at
</text>
<text dominant-baseline=""middle"" fill=""#06B697"" font-family=""Courier New,monospace"" font-size=""small"" font-weight=""lighter"" text-anchor=""end"" x=""290"" y=""277.5"">
timestamp
</text>
<rect fill=""#212121"" height=""245"" rx=""6"" ry=""6"" stroke=""#494949"" width=""300"" x=""430"" y=""50""/>
<rect clip-path=""url(#record-clip-path-1)"" fill=""#494949"" height=""35"" width=""300"" x=""430"" y=""50""/>
<text dominant-baseline=""middle"" fill=""white"" font-family=""Monaco,Lucida Console,monospace"" font-weight=""bold"" text-anchor=""start"" x=""442"" y=""67.5"">
posts
</text>
<line stroke=""#494949"" stroke-width=""1"" x1=""430"" x2=""730"" y1=""85"" y2=""85""/>
<text dominant-baseline=""middle"" fill=""white"" font-family=""Courier New,monospace"" font-weight=""lighter"" text-anchor=""start"" x=""442"" y=""102.5"">
id
</text>
<text dominant-baseline=""middle"" fill=""#ECC700"" font-family=""Courier New,monospace"" font-size=""small"" font-weight=""lighter"" text-anchor=""end"" x=""670"" y=""102.5"">
int
</text>
<circle cx=""706.5"" cy=""102.5"" fill=""#373737"" r=""11.5""/>
<text dominant-baseline=""middle"" fill=""white"" font-family=""Trebuchet MS,sans-serif"" font-size=""xx-small"" text-anchor=""middle"" x=""706.5"" y=""102.5"">
PK
</text>
<line stroke=""#494949"" stroke-width=""1"" x1=""430"" x2=""730"" y1=""120"" y2=""120""/>
<text dominant-baseline=""middle"" fill=""white"" font-family=""Courier New,monospace"" font-weight=""lighter"" text-anchor=""start"" x=""442"" y=""137.5"">
uuid
</text>
<text dominant-baseline=""middle"" fill=""#ECC700"" font-family=""Courier New,monospace"" font-size=""small"" font-weight=""lighter"" text-anchor=""end"" x=""670"" y=""137.5"">
uuid
</text>
<line stroke=""#494949"" stroke-width=""1"" x1=""430"" x2=""730"" y1=""155"" y2=""155""/>
<text dominant-baseline=""middle"" fill=""white"" font-family=""Courier New,monospace"" font-weight=""lighter"" text-anchor=""start"" x=""442"" y=""172.5"">
title
</text>
<text dominant-baseline=""middle"" fill=""#D66905"" font-family=""Courier New,monospace"" font-size=""small"" font-weight=""lighter"" text-anchor=""end"" x=""670"" y=""172.5"">
text
</text>
<line stroke=""#494949"" stroke-width=""1"" x1=""430"" x2=""730"" y1=""190"" y2=""190""/>
<text dominant-baseline=""middle"" fill=""white"" font-family=""Courier New,monospace"" font-weight=""lighter"" text-anchor=""start"" x=""442"" y=""207.5"">
content
</text>
<text dominant-baseline=""middle"" fill=""#D66905"" font-family=""Courier New,monospace"" font-size=""small"" font-weight=""lighter"" text-anchor=""end"" x=""670"" y=""207.5"">
text
</text>
<line stroke=""#494949"" stroke-width=""1"" x1=""430"" x2=""730"" y1=""225"" y2=""225""/>
<text dominant-baseline=""middle"" fill=""white"" font-family=""Courier New,monospace"" font-weight=""lighter"" text-anchor=""start"" x=""442"" y=""242.5"">
created_at
</text>
<text dominant-baseline=""middle"" fill=""#06B697"" font-family=""Courier New,monospace"" font-size=""small"" font-weight=""lighter"" text-anchor=""end"" x=""670"" y=""242.5"">
timestamp
</text>
<line stroke=""#494949"" stroke-width=""1"" x1=""430"" x2=""730"" y1=""260"" y2=""260""/>
<text dominant-baseline=""middle"" fill=""white"" font-family=""Courier New,monospace"" font-weight=""lighter"" text-anchor=""start"" x=""442"" y=""277.5"">
created_by
</text>
<text dominant-baseline=""middle"" fill=""#ECC700"" font-family=""Courier New,monospace"" font-size=""small"" font-weight=""lighter"" text-anchor=""end"" x=""670"" y=""277.5"">
int
</text>
<circle cx=""706.5"" cy=""277.5"" fill=""#202937"" r=""11.5""/>
<text dominant-baseline=""middle"" fill=""#1170FB"" font-family=""Trebuchet MS,sans-serif"" font-size=""xx-small"" text-anchor=""middle"" x=""706.5"" y=""277.5"">
FK
</text>
<rect fill=""#212121"" height=""210"" rx=""6"" ry=""6"" stroke=""#494949"" width=""300"" x=""810"" y=""50""/>
<rect clip-path=""url(#record-clip-path-2)"" fill=""#494949"" height=""35"" width=""300"" x=""810"" y=""50""/>
<text dominant-baseline=""middle"" fill=""white"" font-family=""Monaco,Lucida Console,monospace"" font-weight=""bold"" text-anchor=""start"" x=""822"" y=""67.5"">
comments
</text>
<line stroke=""#494949"" stroke-width=""1"" x1=""810"" x2=""1110"" y1=""85"" y2=""85""/>
<text dominant-baseline=""middle"" fill=""white"" font-family=""Courier New,monospace"" font-weight=""lighter"" text-anchor=""start"" x=""822"" y=""102.5"">
id
</text>
<text dominant-baseline=""middle"" fill=""#ECC700"" font-family=""Courier New,monospace"" font-size=""small"" font-weight=""lighter"" text-anchor=""end"" x=""1050"" y=""102.5"">
int
</text>
<circle cx=""1086.5"" cy=""102.5"" fill=""#373737"" r=""11.5""/>
<text dominant-baseline=""middle"" fill=""white"" font-family=""Trebuchet MS,sans-serif"" font-size=""xx-small"" text-anchor=""middle"" x=""1086.5"" y=""102.5"">
PK
</text>
<line stroke=""#494949"" stroke-width=""1"" x1=""810"" x2=""1110"" y1=""120"" y2=""120""/>
<text dominant-baseline=""middle"" fill=""white"" font-family=""Courier New,monospace"" font-weight=""lighter"" text-anchor=""start"" x=""822"" y=""137.5"">
content
</text>
<text dominant-baseline=""middle"" fill=""#D66905"" font-family=""Courier New,monospace"" font-size=""small"" font-weight=""lighter"" text-anchor=""end"" x=""1050"" y=""137.5"">
text
</text>
<line stroke=""#494949"" stroke-width=""1"" x1=""810"" x2=""1110"" y1=""155"" y2=""155""/>
<text dominant-baseline=""middle"" fill=""white"" font-family=""Courier New,monospace"" font-weight=""lighter"" text-anchor=""start"" x=""822"" y=""172.5"">
created_at
</text>
<text dominant-baseline=""middle"" fill=""#06B697"" font-family=""Courier New,monospace"" font-size=""small"" font-weight=""lighter"" text-anchor=""end"" x=""1050"" y=""172.5"">
timestamp
</text>
<line stroke=""#494949"" stroke-width=""1"" x1=""810"" x2=""1110"" y1=""190"" y2=""190""/>
<text dominant-baseline=""middle"" fill=""white"" font-family=""Courier New,monospace"" font-weight=""lighter"" text-anchor=""start"" x=""822"" y=""207.5"">
post_id
</text>
<text dominant-baseline=""middle"" fill=""#ECC700"" font-family=""Courier New,monospace"" font-size=""small"" font-weight=""lighter"" text-anchor=""end"" x=""1050"" y=""207.5"">
int
</text>
<circle cx=""1086.5"" cy=""207.5"" fill=""#202937"" r=""11.5""/>
<text dominant-baseline=""middle"" fill=""#1170FB"" font-family=""Trebuchet MS,sans-serif"" font-size=""xx-small"" text-anchor=""middle"" x=""1086.5"" y=""207.5"">
FK
</text>
<line stroke=""#494949"" stroke-width=""1"" x1=""810"" x2=""1110"" y1=""225"" y2=""225""/>
<text dominant-baseline=""middle"" fill=""white"" font-family=""Courier New,monospace"" font-weight=""lighter"" text-anchor=""start"" x=""822"" y=""242.5"">
created_by
</text>
<text dominant-baseline=""middle"" fill=""#ECC700"" font-family=""Courier New,monospace"" font-size=""small"" font-weight=""lighter"" text-anchor=""end"" x=""1050"" y=""242.5"">
int
</text>
<circle cx=""1086.5"" cy=""242.5"" fill=""#202937"" r=""11.5""/>
<text dominant-baseline=""middle"" fill=""#1170FB"" font-family=""Trebuchet MS,sans-serif"" font-size=""xx-small"" text-anchor=""middle"" x=""1086.5"" y=""242.5"">
FK
</text>
<rect fill=""#212121"" height=""105"" rx=""6"" ry=""6"" stroke=""#494949"" width=""300"" x=""50"" y=""375""/>
<rect clip-path=""url(#record-clip-path-3)"" fill=""#494949"" height=""35"" width=""300"" x=""50"" y=""375""/>
<text dominant-baseline=""middle"" fill=""white"" font-family=""Monaco,Lucida Console,monospace"" font-weight=""bold"" text-anchor=""start"" x=""62"" y=""392.5"">
tags
</text>
<line stroke=""#494949"" stroke-width=""1"" x1=""50"" x2=""350"" y1=""410"" y2=""410""/>
<text dominant-baseline=""middle"" fill=""white"" font-family=""Courier New,monospace"" font-weight=""lighter"" text-anchor=""start"" x=""62"" y=""427.5"">
id
</text>
<text dominant-baseline=""middle"" fill=""#ECC700"" font-family=""Courier New,monospace"" font-size=""small"" font-weight=""lighter"" text-anchor=""end"" x=""290"" y=""427.5"">
int
</text>
<circle cx=""326.5"" cy=""427.5"" fill=""#373737"" r=""11.5""/>
<text dominant-baseline=""middle"" fill=""white"" font-family=""Trebuchet MS,sans-serif"" font-size=""xx-small"" text-anchor=""middle"" x=""326.5"" y=""427.5"">
PK
</text>
<line stroke=""#494949"" stroke-width=""1"" x1=""50"" x2=""350"" y1=""445"" y2=""445""/>
<text dominant-baseline=""middle"" fill=""white"" font-family=""Courier New,monospace"" font-weight=""lighter"" text-anchor=""start"" x=""62"" y=""462.5"">
name
</text>
<text dominant-baseline=""middle"" fill=""#D66905"" font-family=""Courier New,monospace"" font-size=""small"" font-weight=""lighter"" text-anchor=""end"" x=""290"" y=""462.5"">
text
</text>
<rect fill=""#212121"" height=""105"" rx=""6"" ry=""6"" stroke=""#494949"" width=""300"" x=""430"" y=""375""/>
<rect clip-path=""url(#record-clip-path-4)"" fill=""#494949"" height=""35"" width=""300"" x=""430"" y=""375""/>
<text dominant-baseline=""middle"" fill=""white"" font-family=""Monaco,Lucida Console,monospace"" font-weight=""bold"" text-anchor=""start"" x=""442"" y=""392.5"">
post_tags
</text>
<line stroke=""#494949"" stroke-width=""1"" x1=""430"" x2=""730"" y1=""410"" y2=""410""/>
<text dominant-baseline=""middle"" fill=""white"" font-family=""Courier New,monospace"" font-weight=""lighter"" text-anchor=""start"" x=""442"" y=""427.5"">
post_id
</text>
<text dominant-baseline=""middle"" fill=""#ECC700"" font-family=""Courier New,monospace"" font-size=""small"" font-weight=""lighter"" text-anchor=""end"" x=""670"" y=""427.5"">
int
</text>
<circle cx=""706.5"" cy=""427.5"" fill=""#202937"" r=""11.5""/>
<text dominant-baseline=""middle"" fill=""#1170FB"" font-family=""Trebuchet MS,sans-serif"" font-size=""xx-small"" text-anchor=""middle"" x=""706.5"" y=""427.5"">
FK
</text>
<line stroke=""#494949"" stroke-width=""1"" x1=""430"" x2=""730"" y1=""445"" y2=""445""/>
<text dominant-baseline=""middle"" fill=""white"" font-family=""Courier New,monospace"" font-weight=""lighter"" text-anchor=""start"" x=""442"" y=""462.5"">
tag_id
</text>
<text dominant-baseline=""middle"" fill=""#ECC700"" font-family=""Courier New,monospace"" font-size=""small"" font-weight=""lighter"" text-anchor=""end"" x=""670"" y=""462.5"">
int
</text>
<circle cx=""706.5"" cy=""462.5"" fill=""#202937"" r=""11.5""/>
<text dominant-baseline=""middle"" fill=""#1170FB"" font-family=""Trebuchet MS,sans-serif"" font-size=""xx-small"" text-anchor=""middle"" x=""706.5"" y=""462.5"">
FK
</text>
<path d=""M430 277.5 L396 277.5 Q390 277.5 390 271.5 L390 108.5 Q390 102.5 384 102.5 L350 102.5"" fill=""transparent"" stroke=""#888888"" stroke-width=""1.5""/>
<circle cx=""430"" cy=""277.5"" fill=""#1C1C1C"" r=""4"" stroke=""#888888"" stroke-width=""1.5""/>
<circle cx=""350"" cy=""102.5"" fill=""#1C1C1C"" r=""4"" stroke=""#888888"" stroke-width=""1.5""/>
<path d=""M810 207.5 L776 207.5 Q770 207.5 770 201.5 L770 108.5 Q770 102.5 764 102.5 L730 102.5"" fill=""transparent"" stroke=""#888888"" stroke-width=""1.5""/>
<circle cx=""810"" cy=""207.5"" fill=""#1C1C1C"" r=""4"" stroke=""#888888"" stroke-width=""1.5""/>
<circle cx=""730"" cy=""102.5"" fill=""#1C1C1C"" r=""4"" stroke=""#888888"" stroke-width=""1.5""/>
<path d=""M810 242.5 L776 242.5 Q770 242.5 770 248.5 L770 277.5 L770 300 L770 329 Q770 335 764 335 L580 335 L396 335 Q390 335 390 329 L390 277.5 L390 108.5 Q390 102.5 384 102.5 L350 102.5"" fill=""transparent"" stroke=""#888888"" stroke-width=""1.5""/>
<circle cx=""810"" cy=""242.5"" fill=""#1C1C1C"" r=""4"" stroke=""#888888"" stroke-width=""1.5""/>
<circle cx=""350"" cy=""102.5"" fill=""#1C1C1C"" r=""4"" stroke=""#888888"" stroke-width=""1.5""/>
<path d=""M730 427.5 L764 427.5 Q770 427.5 770 421.5 L770 335 L770 300 L770 277.5 L770 242.5 L770 207.5 L770 108.5 Q770 102.5 764 102.5 L730 102.5"" fill=""transparent"" stroke=""#888888"" stroke-width=""1.5""/>
<circle cx=""730"" cy=""427.5"" fill=""#1C1C1C"" r=""4"" stroke=""#888888"" stroke-width=""1.5""/>
<circle cx=""730"" cy=""102.5"" fill=""#1C1C1C"" r=""4"" stroke=""#888888"" stroke-width=""1.5""/>
<path d=""M430 462.5 L396 462.5 Q390 462.5 390 456.5 L390 433.5 Q390 427.5 384 427.5 L350 427.5"" fill=""transparent"" stroke=""#888888"" stroke-width=""1.5""/>
<circle cx=""430"" cy=""462.5"" fill=""#1C1C1C"" r=""4"" stroke=""#888888"" stroke-width=""1.5""/>
<circle cx=""350"" cy=""427.5"" fill=""#1C1C1C"" r=""4"" stroke=""#888888"" stroke-width=""1.5""/>
</svg>".

Example golden_tags :
  main plain (lit tags_seiren) = mkRun (lit tags_svg) 0 (Ret tt).
Proof. vm_compute. reflexivity. Qed.

(** integration_test.rs:13-34 *)
Example golden_empty_doc :
  (do d <- into_mir (module_new None);
   draw_erd plain (fst (place_nodes d)) None)
  = Ret (lit "<svg xmlns=""http://www.w3.org/2000/svg"">
<rect fill=""#1C1C1C"" height=""100%"" width=""100%""/>
<defs/>
</svg>").
Proof. vm_compute. reflexivity. Qed.

(** integration_test.rs:36-108 *)
Definition demo_module : module :=
  mkModule None
    [ EDef (mkEntity (lit "users")
        [ mkField (lit "id") TInt (Some PrimaryKey); mkField (lit "uuid") TUuid None;
          mkField (lit "email") TText None; mkField (lit "about_html") TText None;
          mkField (lit "created_at") TTimestamp None ]);
      EDef (mkEntity (lit "posts")
        [ mkField (lit "id") TInt (Some PrimaryKey); mkField (lit "uuid") TUuid None;
          mkField (lit "title") TText None; mkField (lit "content") TText None;
          mkField (lit "created_at") TTimestamp None;
          mkField (lit "created_by") TInt (Some ForeignKey) ]);
      ERel (mkRelation (PField (lit "posts") (lit "created_by")) (PField (lit "users") (lit "id"))) ].

Definition demo_svg : string :=
"<svg xmlns=""http://www.w3.org/2000/svg"">
<rect fill=""#1C1C1C"" height=""100%"" width=""100%""/>
<defs>
<clipPath id=""record-clip-path-0"">
<rect height=""210"" rx=""6"" ry=""6"" width=""300"" x=""50"" y=""50""/>
</clipPath>
<clipPath id=""record-clip-path-1"">
<rect height=""245"" rx=""6"" ry=""6"" width=""300"" x=""430"" y=""50""/>
</clipPath>
</defs>
<rect fill=""#212121"" height=""210"" rx=""6"" ry=""6"" stroke=""#494949"" width=""300"" x=""50"" y=""50""/>
<rect clip-path=""url(#record-clip-path-0)"" fill=""#494949"" height=""35"" width=""300"" x=""50"" y=""50""/>
<text dominant-baseline=""middle"" fill=""white"" font-family=""Monaco,Lucida Console,monospace"" font-weight=""bold"" text-anchor=""start"" x=""62"" y=""67.5"">
users
</text>
<line stroke=""#494949"" stroke-width=""1"" x1=""50"" x2=""350"" y1=""85"" y2=""85""/>
<text dominant-baseline=""middle"" fill=""white"" font-family=""Courier New,monospace"" font-weight=""lighter"" text-anchor=""start"" x=""62"" y=""102.5"">
id
</text>
<text dominant-baseline=""middle"" fill=""#ECC700"" font-family=""Courier New,monospace"" font-size=""small"" font-weight=""lighter"" text-anchor=""end"" x=""290"" y=""102.5"">
int
</text>
<circle cx=""326.5"" cy=""102.5"" fill=""#373737"" r=""11.5""/>
<text dominant-baseline=""middle"" fill=""white"" font-family=""Trebuchet MS,sans-serif"" font-size=""xx-small"" text-anchor=""middle"" x=""326.5"" y=""102.5"">
PK
</text>
<line stroke=""#494949"" stroke-width=""1"" x1=""50"" x2=""350"" y1=""120"" y2=""120""/>
<text dominant-baseline=""middle"" fill=""white"" font-family=""Courier New,monospace"" font-weight=""lighter"" text-anchor=""start"" x=""62"" y=""137.5"">
uuid
</text>
<text dominant-baseline=""middle"" fill=""#ECC700"" font-family=""Courier New,monospace"" font-size=""small"" font-weight=""lighter"" text-anchor=""end"" x=""290"" y=""137.5"">
uuid
</text>
<line stroke=""#494949"" stroke-width=""1"" x1=""50"" x2=""350"" y1=""155"" y2=""155""/>
<text dominant-baseline=""middle"" fill=""white"" font-family=""Courier New,monospace"" font-weight=""lighter"" text-anchor=""start"" x=""62"" y=""172.5"">
email
</text>
<text dominant-baseline=""middle"" fill=""#D66905"" font-family=""Courier New,monospace"" font-size=""small"" font-weight=""lighter"" text-anchor=""end"" x=""290"" y=""172.5"">
text
</text>
<line stroke=""#494949"" stroke-width=""1"" x1=""50"" x2=""350"" y1=""190"" y2=""190""/>
<text dominant-baseline=""middle"" fill=""white"" font-family=""Courier New,monospace"" font-weight=""lighter"" text-anchor=""start"" x=""62"" y=""207.5"">
about_html
</text>
<text dominant-baseline=""middle"" fill=""#D66905"" font-family=""Courier New,monospace"" font-size=""small"" font-weight=""lighter"" text-anchor=""end"" x=""290"" y=""207.5"">
text
</text>
<line stroke=""#494949"" stroke-width=""1"" x1=""50"" x2=""350"" y1=""225"" y2=""225""/>
<text dominant-baseline=""middle"" fill=""white"" font-family=""Courier New,monospace"" font-weight=""lighter"" text-anchor=""start"" x=""62"" y=""242.5"">
created_at
</text>
<text dominant-baseline=""middle"" fill=""#06B697"" font-family=""Courier New,monospace"" font-size=""small"" font-weight=""lighter"" text-anchor=""end"" x=""290"" y=""242.5"">
timestamp
</text>
<rect fill=""#212121"" height=""245"" rx=""6"" ry=""6"" stroke=""#494949"" width=""300"" x=""430"" y=""50""/>
<rect clip-path=""url(#record-clip-path-1)"" fill=""#494949"" height=""35"" width=""300"" x=""430"" y=""50""/>
<text dominant-baseline=""middle"" fill=""white"" font-family=""Monaco,Lucida Console,monospace"" font-weight=""bold"" text-anchor=""start"" x=""442"" y=""67.5"">
posts
</text>
<line stroke=""#494949"" stroke-width=""1"" x1=""430"" x2=""730"" y1=""85"" y2=""85""/>
<text dominant-baseline=""middle"" fill=""white"" font-family=""Courier New,monospace"" font-weight=""lighter"" text-anchor=""start"" x=""442"" y=""102.5"">
id
</text>
<text dominant-baseline=""middle"" fill=""#ECC700"" font-family=""Courier New,monospace"" font-size=""small"" font-weight=""lighter"" text-anchor=""end"" x=""670"" y=""102.5"">
int
</text>
<circle cx=""706.5"" cy=""102.5"" fill=""#373737"" r=""11.5""/>
<text dominant-baseline=""middle"" fill=""white"" font-family=""Trebuchet MS,sans-serif"" font-size=""xx-small"" text-anchor=""middle"" x=""706.5"" y=""102.5"">
PK
</text>
<line stroke=""#494949"" stroke-width=""1"" x1=""430"" x2=""730"" y1=""120"" y2=""120""/>
<text dominant-baseline=""middle"" fill=""white"" font-family=""Courier New,monospace"" font-weight=""lighter"" text-anchor=""start"" x=""442"" y=""137.5"">
uuid
</text>
<text dominant-baseline=""middle"" fill=""#ECC700"" font-family=""Courier New,monospace"" font-size=""small"" font-weight=""lighter"" text-anchor=""end"" x=""670"" y=""137.5"">
uuid
</text>
<line stroke=""#494949"" stroke-width=""1"" x1=""430"" x2=""730"" y1=""155"" y2=""155""/>
<text dominant-baseline=""middle"" fill=""white"" font-family=""Courier New,monospace"" font-weight=""lighter"" text-anchor=""start"" x=""442"" y=""172.5"">
title
</text>
<text dominant-baseline=""middle"" fill=""#D66905"" font-family=""Courier New,monospace"" font-size=""small"" font-weight=""lighter"" text-anchor=""end"" x=""670"" y=""172.5"">
text
</text>
<line stroke=""#494949"" stroke-width=""1"" x1=""430"" x2=""730"" y1=""190"" y2=""190""/>
<text dominant-baseline=""middle"" fill=""white"" font-family=""Courier New,monospace"" font-weight=""lighter"" text-anchor=""start"" x=""442"" y=""207.5"">
content
</text>
<text dominant-baseline=""middle"" fill=""#D66905"" font-family=""Courier New,monospace"" font-size=""small"" font-weight=""lighter"" text-anchor=""end"" x=""670"" y=""207.5"">
text
</text>
<line stroke=""#494949"" stroke-width=""1"" x1=""430"" x2=""730"" y1=""225"" y2=""225""/>
<text dominant-baseline=""middle"" fill=""white"" font-family=""Courier New,monospace"" font-weight=""lighter"" text-anchor=""start"" x=""442"" y=""242.5"">
created_at
</text>
<text dominant-baseline=""middle"" fill=""#06B697"" font-family=""Courier New,monospace"" font-size=""small"" font-weight=""lighter"" text-anchor=""end"" x=""670"" y=""242.5"">
timestamp
</text>
<line stroke=""#494949"" stroke-width=""1"" x1=""430"" x2=""730"" y1=""260"" y2=""260""/>
<text dominant-baseline=""middle"" fill=""white"" font-family=""Courier New,monospace"" font-weight=""lighter"" text-anchor=""start"" x=""442"" y=""277.5"">
created_by
</text>
<text dominant-baseline=""middle"" fill=""#ECC700"" font-family=""Courier New,monospace"" font-size=""small"" font-weight=""lighter"" text-anchor=""end"" x=""670"" y=""277.5"">
int
</text>
<circle cx=""706.5"" cy=""277.5"" fill=""#202937"" r=""11.5""/>
<text dominant-baseline=""middle"" fill=""#1170FB"" font-family=""Trebuchet MS,sans-serif"" font-size=""xx-small"" text-anchor=""middle"" x=""706.5"" y=""277.5"">
FK
</text>
<path d=""M430 277.5 L396 277.5 Q390 277.5 390 271.5 L390 108.5 Q390 102.5 384 102.5 L350 102.5"" fill=""transparent"" stroke=""#888888"" stroke-width=""1.5""/>
<circle cx=""430"" cy=""277.5"" fill=""#1C1C1C"" r=""4"" stroke=""#888888"" stroke-width=""1.5""/>
<circle cx=""350"" cy=""102.5"" fill=""#1C1C1C"" r=""4"" stroke=""#888888"" stroke-width=""1.5""/>
</svg>".

Example golden_demo :
  (do r <- layout_module demo_module; draw_erd plain (snd r) None) = Ret (lit demo_svg).
Proof. vm_compute. reflexivity. Qed.
