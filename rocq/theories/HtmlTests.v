(** The unit tests of src/html.rs, run on the model. *)
From Coq Require Import String List NArith Bool.
From Verif Require Import Base HtmlModel.
Import ListNotations.
Open Scope N_scope.

Definition no_u (c : N) : bool := false.
Definition same_u (c : N) : str := [c].

(** html.rs 160-213: html_minify_test *)
Definition html_source : str := S_ "<head>
    <title>Some huge title</title>
    <link rel=""stylesheet"" type=""text/css""   href=""something.css""   >
    <style type=""text/css"">
        .some_class {
            color: red;
        }
    </style>
</head>
<body>
    <header>
        <div>
            <i>    <b><a href=""www.somewhere.com"" class=""some_class"">Narnia</a> </b>    </i>
            <h1    style=""width:100%;text-align:center;""   >Big header</h1>
        </div>
    <!-- commeeeeeeeents !!! -->
    </header>
    <div id=""some_id"">
        <!-- another comment
        on
multi
lines -->
        <div id=""another_id"" class=""another_class"" width=""100"">
            <h2>A little sub title</h2>
            <ul>
                <li>A list!</li>
                <li>Who doesn't like lists?</li>
                <li height=""12"" class=""fooool"">Well, who cares...</li>
            </ul>
        </div>
    </div>
    <script type=""text/javascript""    >
        console.log(""foo"");
    </script>
    <style type=""text/css"" src=""../foo.css"">
    <script src=""../foo.js"">
</body>
".
Definition html_expected : str := S_ "<title>Some huge title</title> <link rel=""stylesheet"" type=""text/css"" href=""something.css""> <style> .some_class { color: red; } </style> <header> <div> <i> <b><a href=""www.somewhere.com"" class=""some_class"">Narnia</a> </b> </i> <h1 style=""width:100%;text-align:center;"">Big header</h1> </div> </header> <div id=""some_id""> <div id=""another_id"" class=""another_class"" width=100> <h2>A little sub title</h2> <ul> <li>A list! <li>Who doesn't like lists? <li height=12 class=""fooool"">Well, who cares... </ul> </div> </div> <script > console.log(""foo""); </script> <style src=""../foo.css""> <script src=""../foo.js"">".

Example html_minify_test : minify no_u no_u same_u html_source = Ok html_expected.
Proof. vm_compute. reflexivity. Qed.

(** html.rs 215-233: html_keep_important_comments *)
Definition html_source2 : str := S_ "
<div>
    <!-- normal comment -->
    <div>content</div>
    <!--[if lte IE 8]>
    <div class=""warning"">This old browser is unsupported and will most likely display funky things.
    </div>
    <![endif]-->
</div>
".
Definition html_expected2 : str := S_ "<div> <div>content</div> <!--[if lte IE 8]> <div class=""warning"">This old browser is unsupported and will most likely display funky things. </div> <![endif]--> </div>".

Example html_keep_important_comments : minify no_u no_u same_u html_source2 = Ok html_expected2.
Proof. vm_compute. reflexivity. Qed.
